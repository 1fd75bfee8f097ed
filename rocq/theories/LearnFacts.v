(** Learning the paddle's velocity: the loss of an episode *)
From Coq Require Import List Arith ZArith Bool Reals Lra Lia.
From Verif Require Import Num Tensor Utils Bodies Contacts World Lapack Engines Breakout Screen Game Learn Spec ScreenSpec GeoSpec GameSpec LapackSpec LearnSpec
     RBase ResFacts HandlerFacts GameFacts GameProps GameStart GameState GameFree ScreenFacts BodyFacts.
Import ListNotations.
Open Scope R_scope.

Definition four (p : rect_params (T := R)) : vec R := [nth 0 (fst p) 0; nth 1 (fst p) 0; nth 0 (snd p) 0; nth 1 (snd p) 0].
Lemma four_state p blocks ball : plain p -> paddle_state (p, blocks, ball) = four p.
Proof. intros (x & y & w & h & -> & _). reflexivity. Qed.
Lemma with_same (w : world R) : with_bodies w (w_bodies w) = w.
Proof. now destruct w. Qed.
Lemma so_far_S a l j : so_far (a :: l) (S j) = a + so_far l j.
Proof. reflexivity. Qed.
Lemma mapM_all {A B} (f : A -> res B) (g : A -> B) l : (forall x, In x l -> f x = Ok (g x)) -> mapM f l = Ok (map g l).
Proof. induction l as [|x l IH]; intros H; [reflexivity|]. cbn [mapM]. rewrite (H x (or_introl eq_refl)). cbn [bind]. rewrite IH by (intros y Hy; apply H; now right). reflexivity. Qed.
Lemma paddle_plain p : readable p -> plain (paddle_of p).
Proof.
  intros RD. destruct (rd_paddle p RD) as [[W _] _]. do 4 eexists. split; [reflexivity|]. cbn [paddle_box bx_width bx_height]. split; [apply lt_0_INR; lia|cbn; lra].
Qed.
Lemma ball_positive p : readable p -> 0 < snd (ball_shown p).
Proof.
  intros RD. unfold ball_shown. destruct (pc_ball p) as [b|] eqn:E; [|cbn; lra]. destruct (rd_ball p RD b E) as (Hh & Hw & _). apply lt_INR in Hh, Hw. cbn [INR] in Hh, Hw. cbn [snd].
  unfold Rmin at 1. destruct (Rle_dec _ 1); [|lra]. unfold Rmin. destruct (Rle_dec _ _); lra.
Qed.

Section Free.
Variables (la : lapack R) (mi gf : nat) (o : oracle R).
Hypothesis HL : lapack_ok la.
Hypothesis Hmi : (0 < mi)%nat.
Hypothesis Ho : broadphase_sane o.
Hypothesis Hg : (18 <= gf)%nat.
Notation hd := (diff_handler gf o).
Notation eng := (pdipm_engine la mi).

Lemma free_states paddle0 blocks ball0 w0 f vx vy : startable paddle0 blocks ball0 -> blocks <> [] -> 0 < snd ball0 -> make_world o hd paddle0 blocks ball0 [0; 0] = Ok w0 ->
  forall acts w paddle ball, gliding la mi gf o w0 w paddle blocks ball (0, (0, 0)) -> 0 <= snd ball -> plain paddle -> snd paddle = snd paddle0 ->
  (forall k, (1 <= k <= length acts)%nat -> uncrowded (shifted (vx * so_far acts k) (vy * so_far acts k) paddle) blocks (shifted 0 0 ball)) ->
  states (S (S f)) o hd eng vx vy acts w = Ok (map (fun j => four (shifted (vx * so_far acts j) (vy * so_far acts j) paddle)) (seq 1 (length acts))).
Proof.
  intros ST Hne Hr H0. destruct (make_world_setup _ _ _ _ _ _ _ (st_paddle _ _ _ ST) (st_blocks _ _ _ ST) (st_ball _ _ _ ST) H0) as (b0 & rects & St).
  induction acts as [|a acts IH]; intros w paddle ball Gl Hb Pl Es HU; [reflexivity|].
  assert (U1 : uncrowded (shifted (vx * a) (vy * a) paddle) blocks (shifted (fst (snd (0, (0, 0)))) (snd (snd (0, (0, 0)))) ball)).
  { specialize (HU 1%nat ltac:(cbn; lia)). rewrite so_far_S in HU. unfold so_far in HU. cbn [firstn total fold_right] in HU. now rewrite !Rplus_0_r in HU. }
  destruct (glide la mi gf o HL Hmi Ho Hg paddle0 blocks ball0 [0; 0] w0 b0 rects (st_paddle _ _ _ ST) (st_blocks _ _ _ ST) (st_ball _ _ _ ST) (st_sized _ _ _ ST) Hr (st_hanging _ _ _ ST) H0 St w paddle ball _ f a vx vy Gl Hb U1) as (w1 & E1 & _ & G1).
  destruct (game_state la mi gf o _ _ _ _ _ _ _ _ _ _ _ (st_paddle _ _ _ ST) (st_blocks _ _ _ ST) (st_ball _ _ _ ST) HL Ho H0 (gl_game _ _ _ _ _ _ _ _ _ _ Gl) E1) as (b & p & rest & Eb & Esim).
  destruct (gl_at _ _ _ _ _ _ _ _ _ _ G1) as [_ A1 A2]. rewrite Eb in A1, A2. destruct (A2 1%nat p (le_n _) eq_refl) as (s & Hs & Up). cbn in Hs. injection Hs as <-.
  pose proof (upright_pos _ _ (plain_shifted _ (vx * a) (vy * a) Pl) Up) as Q1.
  assert (Rb : b_rot b = 0) by (apply (gl_rot _ _ _ _ _ _ _ _ _ _ G1 eq_refl); rewrite Eb; reflexivity).
  assert (Rp : b_rot p = 0) by (destruct Up as (? & ? & ? & ? & _ & _ & _ & Ep & _); unfold b_rot; now rewrite Ep).
  destruct blocks as [|k ks]; [congruence|]. rewrite (cleared_same _ Rb), (cleared_same _ Rp), <- Eb, with_same, Q1, <- Es in Esim.
  cbn [states]. rewrite Esim. cbn [bind fst snd]. cbn [fst snd] in G1. rewrite (IH w1 _ _ G1); [|exact Hb|now apply plain_shifted|exact Es|].
  - cbn [bind length seq map]. rewrite <- (seq_shift (length acts) 1), map_map. apply (f_equal Ok), f_equal2.
    + rewrite so_far_S. unfold so_far. cbn [firstn total fold_right]. rewrite !Rplus_0_r. destruct Pl as (x & y & wd & h & -> & _). reflexivity.
    + apply map_ext. intros j. f_equal. rewrite so_far_S, shifted_twice. f_equal; ring.
  - intros i Hi. specialize (HU (S i) ltac:(cbn [length]; lia)). rewrite so_far_S in HU. rewrite !shifted_twice. rewrite Rplus_0_l.
    replace (vx * a + vx * so_far acts i) with (vx * (a + so_far acts i)) by ring. replace (vy * a + vy * so_far acts i) with (vy * (a + so_far acts i)) by ring. exact HU.
Qed.

Lemma mse_four l l' : length l = length l' -> mse (concat (map four l)) (concat (map four l')) = Rsum (map2 apart_sq l l') / INR (4 * length l).
Proof.
  intros HLn. unfold mse. rnum. f_equal.
  - revert l' HLn. induction l as [|p l IH]; intros [|q l'] HLn; try discriminate; [reflexivity|]. injection HLn as HLn. specialize (IH l' HLn).
    cbn [map concat map2]. unfold four at 1 3. cbn [app]. unfold vsub, vmap2 in *. cbn [combine map vsum fold_right fst snd] in *. unfold map2 in *. cbn [combine map] in *. rewrite Rsum_cons, <- IH. unfold apart_sq, vsum. cbn [fst snd]. rnum. ring.
  - rewrite INR_IZR_INZ. do 2 f_equal. clear. induction l as [|p l IH]; [reflexivity|]. cbn [map concat length]. rewrite app_length, IH. cbn [four length]. lia.
Qed.

Lemma free_episode env acts scene sfuel f vx vy : filmed env acts scene sfuel -> opening (scene 0%nat) -> keeps_away (scene 0%nat) acts vx vy ->
  episode (S (S f)) sfuel o hd eng env acts vx vy = Ok (mean_miss scene acts vx vy).
Proof.
  intros HF [ST Hne] HK. unfold episode, true_states.
  assert (RD : forall j, (j <= length acts)%nat -> extract_params sfuel (env (sent (firstn j acts))) = Ok (paddle_of (scene j), blocks_of (scene j), ball_shown (scene j)) /\ plain (paddle_of (scene j))).
  { intros j Hj. destruct (HF j Hj) as (S1 & S2 & S3). split; [exact (screen_read _ _ _ S1 S2 S3)|now apply paddle_plain]. }
  assert (Hr : 0 < snd (ball_shown (scene 0%nat))) by (apply ball_positive, (HF 0%nat); lia).
  destruct (RD 0%nat (Nat.le_0_l _)) as [E0 P0]. cbn [firstn sent map] in E0. rewrite E0. cbn [bind].
  rewrite (mapM_all _ (fun j => four (paddle_of (scene j)))).
  2:{ intros j Hj. apply in_seq in Hj. destruct (RD j) as [E P]; [lia|]. rewrite E. cbn [bind]. now rewrite four_state. }
  cbn [bind]. destruct (make_world_starts gf o _ _ _ [0; 0] (0, (0, 0)) Hg Ho ST eq_refl) as [w0 H0]. rnum. rewrite H0. cbn [bind].
  assert (Eb : shifted 0 0 (ball_shown (scene 0%nat)) = ball_shown (scene 0%nat)).
  { destruct (st_ball _ _ _ ST) as (x & y & E). destruct (ball_shown (scene 0%nat)) as [c r]. cbn in E. subst c. unfold shifted. cbn [fst snd nth]. now rewrite !Rplus_0_r. }
  assert (U0 : uncrowded (paddle_of (scene 0%nat)) (blocks_of (scene 0%nat)) (ball_shown (scene 0%nat))).
  { apply uncrowded_0; [exact P0|exact (st_ball _ _ _ ST)|]. rewrite Eb. specialize (HK 0%nat (Nat.le_0_l _)). unfold so_far in HK. cbn [firstn total fold_right] in HK. now rewrite !Rmult_0_r in HK. }
  destruct (gliding_starts la mi gf o Hmi Ho Hg _ _ _ [0; 0] (0, (0, 0)) _ ST Hr eq_refl U0 H0) as [Gl _].
  rewrite (free_states _ _ _ _ f vx vy ST Hne Hr H0 acts w0 _ _ Gl (Rlt_le _ _ Hr) P0 eq_refl).
  2:{ intros k Hk. rewrite Eb. apply HK. lia. }
  cbn [bind]. f_equal. rewrite four_state by exact P0.
  replace (four (paddle_of (scene 0%nat)) :: map (fun j => four (shifted (vx * so_far acts j) (vy * so_far acts j) (paddle_of (scene 0%nat)))) (seq 1 (length acts)))
    with (map four (paddle_of (scene 0%nat) :: map (fun j => shifted (vx * so_far acts j) (vy * so_far acts j) (paddle_of (scene 0%nat))) (seq 1 (length acts)))) by (cbn [map]; now rewrite map_map).
  replace (four (paddle_of (scene 0%nat)) :: map (fun j => four (paddle_of (scene j))) (seq 1 (length acts)))
    with (map four (paddle_of (scene 0%nat) :: map (fun j => paddle_of (scene j)) (seq 1 (length acts)))) by (cbn [map]; now rewrite map_map).
  rewrite mse_four by (cbn [length]; now rewrite !map_length). unfold mean_miss. cbn [length]. rewrite map_length, seq_length. f_equal.
  unfold map2. cbn [combine map]. rewrite Rsum_cons. replace (apart_sq (fst (paddle_of (scene 0%nat), paddle_of (scene 0%nat))) _) with 0 by (unfold apart_sq; cbn [fst snd]; ring). rewrite Rplus_0_l. f_equal.
  clear. induction (seq 1 (length acts)) as [|j l IH]; [reflexivity|]. cbn [map combine fst snd]. now rewrite IH.
Qed.
End Free.
