(** The simulated Breakout game: games started from the screen *)
From Coq Require Import List Arith ZArith Lia Bool Reals Lra.
From Verif Require Import Num Tensor Utils Bodies Forces Constraints Contacts World Lapack Engines Breakout Screen Game
     Spec GeoSpec ContactSpec ScreenSpec GameSpec ResFacts RBase ScreenFacts GameFacts GameProps GameStart.
Import ListNotations.
Open Scope R_scope.

Lemma INR_half n m : INR n + INR m / 2 - INR m / 2 = INR n /\ INR n + INR m / 2 + INR m / 2 = INR (n + m).
Proof. rewrite plus_INR. split; lra. Qed.
Lemma box_pixels b : box_of (centre b, size b) = pixels b.
Proof. unfold box_of, centre, size, pixels. cbn [nth fst snd]. destruct (INR_half (bx_left b) (bx_width b)) as [-> ->]. destruct (INR_half (bx_top b) (bx_height b)) as [-> ->]. reflexivity. Qed.
Lemma disjoint_apart a b : (0 < bx_width a)%nat -> (0 < bx_height a)%nat -> (0 < bx_width b)%nat -> (0 < bx_height b)%nat -> disjoint a b ->
  (bx_left a + bx_width a <= bx_left b \/ bx_left b + bx_width b <= bx_left a \/ bx_top a + bx_height a <= bx_top b \/ bx_top b + bx_height b <= bx_top a)%nat.
Proof.
  intros H1 H2 H3 H4 D. destruct (Nat.le_gt_cases (bx_left a + bx_width a) (bx_left b)); [lia|]. destruct (Nat.le_gt_cases (bx_left b + bx_width b) (bx_left a)); [lia|].
  destruct (Nat.le_gt_cases (bx_top a + bx_height a) (bx_top b)); [lia|]. destruct (Nat.le_gt_cases (bx_top b + bx_height b) (bx_top a)); [lia|].
  exfalso. apply (D (Nat.max (bx_top a) (bx_top b)) (Nat.max (bx_left a) (bx_left b))); unfold inside; lia.
Qed.
Lemma INR_le n m : (n <= m)%nat -> INR n <= INR m.
Proof. apply le_INR. Qed.
(** the disc of the ball's pixels *)
Definition ball_params_of (p : picture) : ball_params (T := R) :=
  match pc_ball p with
  | Some b => (centre b, Rmin (Rmin (INR (bx_width b)) (INR (bx_height b)) / 2) 1)
  | None => ([80; 21000], 1)
  end.
Lemma ball_in b x y r : r <= INR (bx_width b) / 2 -> r <= INR (bx_height b) / 2 -> [x; y] = centre b ->
  INR (bx_left b) <= x - r /\ x + r <= INR (bx_left b + bx_width b) /\ INR (bx_top b) <= y - r /\ y + r <= INR (bx_top b + bx_height b).
Proof. intros H1 H2 E. unfold centre in E. injection E as -> ->. rewrite !plus_INR. lra. Qed.
Lemma blocks_in p b : readable p -> In b (all_blocks p) -> exists k c, (k < 6)%nat /\ In c (level p k) /\ b = block_box k c /\ (0 < bx_width b)%nat /\ (bx_left b + bx_width b < 160)%nat.
Proof.
  intros RD H. unfold all_blocks in H. apply in_flat_map in H. destruct H as (k & Hk & H). apply in_seq in Hk. apply in_map_iff in H. destruct H as (c & <- & Hc).
  exists k, c. destruct (rd_levels p RD) as [L6 HS]. rewrite Forall_forall in HS. assert (Hin : In (level p k) (pc_blocks p)) by (apply nth_In; lia).
  destruct (spread_lo 0 _ c (HS _ Hin) Hc) as (Q1 & Q2 & Q3). split; [lia|]. split; [exact Hc|]. split; [reflexivity|]. unfold block_box. cbn [bx_width bx_left]. lia.
Qed.
Lemma screen_startable p : readable p -> (9 <= pc_paddle p)%nat ->
  (forall b, pc_ball p = Some b -> 31 <= bx_top b /\ 8 <= bx_left b /\ bx_left b + bx_width b <= 152)%nat ->
  startable (centre (paddle_box p), size (paddle_box p)) (map (fun b => (centre b, size b)) (all_blocks p)) (ball_params_of p).
Proof.
  intros RD Hpad Hball. pose proof (rd_paddle p RD) as (P1 & P2 & _).
  assert (PB : forall b, (0 < bx_width b)%nat -> (0 < bx_height b)%nat -> plain (centre b, size b)).
  { intros b Hw Hh. unfold plain, centre, size. do 4 eexists. split; [reflexivity|]. split; now apply lt_0_INR. }
  assert (BK : forall b, In b (all_blocks p) -> (0 < bx_width b)%nat /\ bx_height b = 6%nat /\ (57 <= bx_top b <= 87)%nat /\ (bx_left b + bx_width b < 160)%nat).
  { intros b Hb. destruct (blocks_in p b RD Hb) as (k & c & Hk & _ & -> & Hw & Hl). cbn [block_box bx_height bx_top] in *. repeat split; lia. }
  assert (BKR : forall b, In b (all_blocks p) -> 57 <= INR (bx_top b) <= 87 /\ INR (bx_top b + bx_height b) <= 93 /\ INR (bx_left b + bx_width b) <= 160 /\ 0 <= INR (bx_left b)).
  { intros b Hb. destruct (BK b Hb) as (_ & H6 & Ht & Hl). pose proof (le_INR _ _ (proj1 Ht)) as A1. pose proof (le_INR _ _ (proj2 Ht)) as A2.
    assert (A3 : (bx_top b + bx_height b <= 93)%nat) by lia. apply le_INR in A3. assert (A4 : (bx_left b + bx_width b <= 160)%nat) by lia. apply le_INR in A4. pose proof (pos_INR (bx_left b)).
    replace (INR 57) with 57 in A1 by (cbn; lra). replace (INR 87) with 87 in A2 by (rewrite INR_IZR_INZ; reflexivity). replace (INR 93) with 93 in A3 by (rewrite INR_IZR_INZ; reflexivity). replace (INR 160) with 160 in A4 by (rewrite INR_IZR_INZ; reflexivity). lra. }
  assert (PR : 9 <= INR (pc_paddle p) /\ INR (pc_paddle p + pc_width p) <= 152).
  { pose proof (le_INR _ _ Hpad) as A1. pose proof (le_INR _ _ P2) as A2. rewrite (INR_IZR_INZ 9) in A1. rewrite (INR_IZR_INZ 152) in A2. cbn in A1, A2. lra. }
  assert (NB : forall j s, nth_error (board (centre (paddle_box p), size (paddle_box p)) (map (fun b => (centre b, size b)) (all_blocks p)) (ball_params_of p)) (7 + j) = Some s ->
    exists b, In b (all_blocks p) /\ s = pixels b).
  { intros j s H. unfold board in H. rewrite nth_error_app2 in H by (cbn; lia). cbn [length] in H. replace (7 + j - 7)%nat with j in H by lia. rewrite !nth_error_map in H.
    destruct (nth_error (all_blocks p) j) as [b|] eqn:Eb; [|discriminate]. cbn [option_map] in H. injection H as <-. exists b. split; [eapply nth_error_In; eauto|apply box_pixels]. }
  (* where the ball is *)
  assert (BL : exists x y r, ball_params_of p = ([x; y], r) /\ 0 <= r <= 1 /\
    (20000 <= y - r \/ exists b, pc_ball p = Some b /\ INR (bx_left b) <= x - r /\ x + r <= INR (bx_left b + bx_width b) /\ INR (bx_top b) <= y - r /\ y + r <= INR (bx_top b + bx_height b))).
  { unfold ball_params_of. destruct (pc_ball p) as [b|] eqn:Eb.
    - unfold centre. do 3 eexists. split; [reflexivity|]. set (r := Rmin _ 1). pose proof (pos_INR (bx_width b)) as W0. pose proof (pos_INR (bx_height b)) as H0.
      assert (Rr : 0 <= r /\ r <= 1 /\ r <= INR (bx_width b) / 2 /\ r <= INR (bx_height b) / 2).
      { unfold r. pose proof (Rmin_l (Rmin (INR (bx_width b)) (INR (bx_height b)) / 2) 1). pose proof (Rmin_r (Rmin (INR (bx_width b)) (INR (bx_height b)) / 2) 1).
        pose proof (Rmin_l (INR (bx_width b)) (INR (bx_height b))). pose proof (Rmin_r (INR (bx_width b)) (INR (bx_height b))).
        assert (0 <= Rmin (INR (bx_width b)) (INR (bx_height b))) by (apply Rmin_glb; assumption).
        assert (0 <= Rmin (Rmin (INR (bx_width b)) (INR (bx_height b)) / 2) 1) by (apply Rmin_glb; lra). lra. }
      split; [lra|]. right. exists b. split; [reflexivity|]. apply ball_in; try tauto; reflexivity.
    - exists 80, 21000, 1. split; [reflexivity|]. split; [lra|]. left. lra. }
  destruct BL as (x & y & r & EB & Hr & BL).
  assert (DB : disc_of (ball_params_of p) = Disc (x, y) r) by (rewrite EB; reflexivity).
  constructor.
  - apply PB; cbn; lia.
  - apply Forall_forall. intros q Hq. apply in_map_iff in Hq. destruct Hq as (b & <- & Hb). destruct (BK b Hb) as (A1 & A2 & _). apply PB; lia.
  - exists x, y. rewrite EB. reflexivity.
  - apply Forall_forall. intros s Hs. apply In_nth_error in Hs. destruct Hs as [j Hj].
    destruct j as [|[|[|[|[|[|[|j]]]]]]]; [| | | | | | |apply (NB j) in Hj; destruct Hj as (b & Hb & ->); destruct (BKR b Hb) as (A1 & A2 & A3 & A4); cbn; lra];
      unfold board in Hj; cbn [app nth_error] in Hj; injection Hj as <-; try (cbn; lra).
    + rewrite DB. cbn. lra.
    + rewrite box_pixels. unfold pixels, paddle_box. cbn [bx_left bx_top bx_width bx_height]. rewrite (plus_INR 189 4). rewrite (INR_IZR_INZ 4), (INR_IZR_INZ 189). cbn [sized Z.of_nat Pos.of_succ_nat Pos.succ]. lra.
  - apply Forall_forall. intros q Hq. apply in_map_iff in Hq. destruct Hq as (b & <- & Hb). destruct (BKR b Hb) as (A1 & A2 & A3 & A4). rewrite box_pixels. cbn. lra.
  - apply Forall_forall. intros q Hq. apply in_map_iff in Hq. destruct Hq as (b & <- & Hb). destruct (BKR b Hb) as (A1 & A2 & A3 & A4). rewrite box_pixels. cbn. lra.
  - intros j s Hm Hj. rewrite box_pixels. unfold pixels, paddle_box. cbn [bx_left bx_top bx_width bx_height]. assert (Z9 : INR 189 = 189) by (rewrite INR_IZR_INZ; reflexivity).
    assert (J5 : (5 <= j)%nat) by (unfold may_touch in Hm; lia). do 5 (destruct j as [|j]; [lia|]). destruct j as [|[|j]].
    + unfold board in Hj; cbn [app nth_error] in Hj; injection Hj as <-. cbn. lra.
    + unfold board in Hj; cbn [app nth_error] in Hj; injection Hj as <-. cbn. lra.
    + apply (NB j) in Hj. destruct Hj as (b & Hb & ->). destruct (BKR b Hb) as (A1 & A2 & A3 & A4). unfold pixels. rewrite Z9. cbn [apart]. lra.
  - intros j s Hm Hj. rewrite DB. destruct BL as [Hy|(b & Eb & X1 & X2 & Y1 & Y2)].
    + assert (Q : match s with Box _ _ _ yb => yb <= 20000 | _ => False end).
      { unfold may_touch in Hm. destruct j as [|[|[|[|[|[|[|j]]]]]]]; try lia; [| | | |apply (NB j) in Hj; destruct Hj as (b & Hb & ->); destruct (BKR b Hb) as (A1 & A2 & A3 & A4); cbn; lra];
          unfold board in Hj; cbn [app nth_error] in Hj; injection Hj as <-; try lra.
        rewrite box_pixels. unfold pixels, paddle_box. cbn [bx_left bx_top bx_width bx_height]. rewrite (plus_INR 189 4). rewrite (INR_IZR_INZ 4), (INR_IZR_INZ 189). cbn [Z.of_nat Pos.of_succ_nat Pos.succ]. lra. }
      destruct s; [destruct Q|]. cbn. lra.
    + destruct (Hball b Eb) as (B1 & B2 & B3). apply le_INR in B1, B2, B3. rewrite (INR_IZR_INZ 31) in B1. rewrite (INR_IZR_INZ 8) in B2. rewrite (INR_IZR_INZ 152) in B3. cbn [Z.of_nat Pos.of_succ_nat Pos.succ] in B1, B2, B3.
      destruct (rd_ball p RD b Eb) as (W1 & W2 & _ & _ & _ & Dbl & Dpad & _).
      assert (DI : forall q, (0 < bx_width q)%nat -> (0 < bx_height q)%nat -> disjoint b q -> beside (Disc (x, y) r) (pixels q)).
      { intros q Q1 Q2 D. unfold pixels. cbn [beside fst snd]. destruct (disjoint_apart b q W2 W1 Q1 Q2 D) as [E|[E|[E|E]]]; apply le_INR in E; lra. }
      unfold may_touch in Hm. destruct j as [|[|[|[|[|[|[|j]]]]]]]; try lia.
      * unfold board in Hj. cbn [app nth_error] in Hj. injection Hj as <-. rewrite box_pixels. apply DI; [cbn; lia|cbn; lia|]. intros i k H1 H2. apply (Dpad i k H1). unfold inside in *. cbn [paddle_box bx_top bx_left bx_width bx_height] in *. lia.
      * unfold board in Hj. cbn [app nth_error] in Hj. injection Hj as <-. cbn. lra.
      * unfold board in Hj. cbn [app nth_error] in Hj. injection Hj as <-. cbn. lra.
      * unfold board in Hj. cbn [app nth_error] in Hj. injection Hj as <-. cbn. lra.
      * apply (NB j) in Hj. destruct Hj as (q & Hq & ->). destruct (blocks_in p q RD Hq) as (k & c & Hk & Hc & -> & Hw & _). apply DI; [exact Hw|cbn; lia|]. now apply Dbl.
Qed.
Lemma screen_game gf o f p fuel vel u : (18 <= gf)%nat -> broadphase_sane o -> shows f p -> readable p -> Forall (fun l => (length l < fuel)%nat) (pc_blocks p) -> (9 <= pc_paddle p)%nat ->
  (forall b, pc_ball p = Some b -> 31 <= bx_top b /\ 8 <= bx_left b /\ bx_left b + bx_width b <= 152)%nat -> to_v3 vel = Ok u ->
  exists paddle blocks ball w, extract_params fuel f = Ok (paddle, blocks, ball) /\ startable paddle blocks ball /\ make_world o (diff_handler gf o) paddle blocks ball vel = Ok w /\
    (exists c r, board paddle blocks ball = [Disc c r; pixels (paddle_box p); Box 0 8 0 189; Box 152 160 0 195; Box 8 152 0 31; Box 0 8 189 195; Box 160 168 189 195] ++ map pixels (all_blocks p) /\
      forall b, pc_ball p = Some b -> centre b = [fst c; snd c] /\ r = Rmin (Rmin (INR (bx_width b)) (INR (bx_height b)) / 2) 1) /\
    Forall2 fills (w_bodies w) (board paddle blocks ball).
Proof.
  intros Hg Ho Hs Hr Hl Hp Hb Hv. pose proof (screen_startable p Hr Hp Hb) as ST. destruct (make_world_starts gf o _ _ _ vel u Hg Ho ST Hv) as [w Hw].
  do 4 eexists. split; [exact (screen_read f p fuel Hs Hr Hl)|]. split; [exact ST|]. split; [exact Hw|]. split.
  - unfold board, disc_of. exists (nth 0 (fst (ball_params_of p)) 0, nth 1 (fst (ball_params_of p)) 0), (snd (ball_params_of p)). split.
    + rewrite box_pixels, map_map. erewrite (map_ext (fun x => box_of (centre x, size x))) by (intros; apply box_pixels). reflexivity.
    + intros b Eb. unfold ball_params_of. rewrite Eb. split; reflexivity.
  - exact (proj1 (game_layout _ _ _ _ _ _ _ (st_paddle _ _ _ ST) (st_blocks _ _ _ ST) (st_ball _ _ _ ST) Hw)).
Qed.
