(** The simulated Breakout game: what its states have in common *)
From Coq Require Import List Arith ZArith Lia Bool Reals Lra.
From Verif Require Import Num Tensor Utils Bodies Forces Constraints Contacts World Lapack Engines Breakout Game
     Spec GeoSpec BodySpec JointSpec FreshSpec ContactSpec LapackSpec EngineSpec GameSpec ResFacts RBase BodyFacts RigidFacts GeomFacts BodyReach WorldFacts HandlerFacts
     LayoutFacts HistFacts SatFacts FreshFacts CollideFacts EngineFacts MomentumFacts EngineProps EngineMore StrictSpec StrictFacts TimeFacts GameFacts.
Import ListNotations.
Open Scope R_scope.

Section Games.
Context {st : bool}.
(** *** a game is a session with the package's engine *)
Lemma setup_ids o hd paddle blocks ball vel w b0 rects : setup (st := st) o hd paddle blocks ball vel w b0 rects -> map b_id (b0 :: rects) = seq 0 (7 + length blocks).
Proof.
  intros S. cbn [map]. rewrite (proj1 (su_ball _ _ _ _ _ _ _ _ _ S)). change (seq 0 (7 + length blocks)) with (0%nat :: seq 1 (6 + length blocks)). f_equal.
  rewrite <- (entries_ids paddle blocks). pose proof (su_rects _ _ _ _ _ _ _ _ _ S) as F. clear S. revert F. generalize (entries paddle blocks). intros es F.
  induction F as [|x b l l' (a & c & wd & h & _ & _ & _ & _ & _ & Hid & _) F IH]; [reflexivity|]. cbn [map]. now rewrite Hid, IH.
Qed.
Lemma setup_session la mi gf o paddle blocks ball vel w0 b0 rects w : broadphase_sane o -> setup (st := st) o (diff_handler gf o) paddle blocks ball vel w0 b0 rects -> game la mi gf o w0 w ->
  session la mi o (diff_handler gf o) (b0 :: rects) (map total_init (tl rects)) w.
Proof.
  intros Ho S G. destruct (game_exec _ _ _ _ _ _ G) as (fuel & ops & Hx).
  eapply session_history with (gf := gf) (w0 := w0) (ops := ops); [left; reflexivity|exact Ho| | | |exact (su_init _ _ _ _ _ _ _ _ _ S)|exact Hx].
  - rewrite (setup_ids _ _ _ _ _ _ _ _ _ S). apply seq_NoDup.
  - apply Forall_forall. intros j Hj. apply in_map_iff in Hj. destruct Hj as (b & <- & Hb). apply built_total. right. destruct rects; [destruct Hb|right; exact Hb].
  - constructor; [exact (proj2 (proj2 (proj2 (proj2 (proj2 (proj2 (proj2 (su_ball _ _ _ _ _ _ _ _ _ S))))))))|]. pose proof (su_rects _ _ _ _ _ _ _ _ _ S) as F.
    clear S. revert F. generalize (entries paddle blocks). intros es F. induction F as [|x b l l' (a & c & wd & h & H) F IH]; constructor; [|exact IH]. repeat apply proj2 in H. exact H.
Qed.
Lemma setup_length o hd paddle blocks ball vel w b0 rects : setup (st := st) o hd paddle blocks ball vel w b0 rects -> length rects = (6 + length blocks)%nat.
Proof. intros S. pose proof (f_equal (@length _) (setup_ids _ _ _ _ _ _ _ _ _ S)) as E. rewrite map_length, seq_length in E. cbn [length] in E. lia. Qed.

Lemma Forall2_nth {A B} (P : A -> B -> Prop) l l' i y : Forall2 P l l' -> nth_error l' i = Some y -> exists x, nth_error l i = Some x /\ P x y.
Proof. intros F. revert i. induction F as [|a b l l' H F IH]; intros [|i] E; try discriminate; [injection E as <-; exists a; auto|]. exact (IH i E). Qed.
Lemma Forall2_nth_l {A B} (P : A -> B -> Prop) l l' i x : Forall2 P l l' -> nth_error l i = Some x -> exists y, nth_error l' i = Some y /\ P x y.
Proof. intros F. revert i. induction F as [|a b l l' H F IH]; intros [|i] E; try discriminate; [injection E as <-; exists b; auto|]. exact (IH i E). Qed.

(** the bodies of a game: at position i the piece i, its shape turned by its angle *)
Record now (x : nat * rect_params (T := R) * R) (b : body R) : Prop := {
  nw_shape : exists a c w h, snd (fst x) = ([a; c], [w; h]) /\ 0 < w /\ 0 < h /\ b_verts b = map (rotate (b_rot b)) (corners w h);
  nw_kind : is_circle b = false;
  nw_mass : b_mass b = 1 }.
Lemma game_rect_now la mi gf o paddle blocks ball vel w0 b0 rects w i b : setup (st := st) o (diff_handler gf o) paddle blocks ball vel w0 b0 rects -> game la mi gf o w0 w ->
  nth_error (w_bodies w) (S i) = Some b -> exists x, nth_error (entries paddle blocks) i = Some x /\ now x b.
Proof.
  intros St G Hb. destruct (game_exec _ _ _ _ _ _ G) as (fuel & ops & Hx).
  pose proof (world_steps _ shape_steps _ _ _ _ _ _ _ _ _ _ _ _ _ _ _ _ (diff_handler_frame gf o) (su_init _ _ _ _ _ _ _ _ _ St) Hx) as F.
  destruct (Forall2_nth _ _ _ _ _ F Hb) as (c & Hc & Hr & Hm). cbn [nth_error] in Hc.
  destruct (Forall2_nth _ _ _ _ _ (su_rects _ _ _ _ _ _ _ _ _ St) Hc) as (x & Ex & (a & cy & wd & h & Ep & Hw & Hh & Hk & Hp & _ & _ & Hma & _ & _ & _ & _ & _ & Av)).
  exists x. split; [exact Ex|]. destruct Hr as (_ & Hv & _); [apply shape_poly_wf; now apply available_shape|]. destruct Hm as (M & _).
  assert (Ev : b_verts b = map (rotate (b_rot b)) (corners wd h)).
  { rewrite Hv. replace (b_verts c) with (corners wd h) by (unfold b_verts; now rewrite Hk). f_equal. f_equal. unfold b_rot. rewrite Hp. cbn. lra. }
  constructor.
  - exists a, cy, wd, h. auto.
  - unfold is_circle. unfold b_verts in Ev. destruct (b_kind b); try reflexivity. discriminate Ev.
  - rewrite M. exact Hma.
Qed.

(** *** the constructor leaves the bodies as they are *)
Lemma set_own_v (w w' : world R) : set_v w (cat3 (map b_v (w_bodies w))) = Ok w' -> w_bodies w' = w_bodies w.
Proof.
  intros H. apply set_v_inv in H. destruct H as [_ ->]. cbn [w_bodies with_state]. apply nth_error_ext. intros i. rewrite mapi_nth.
  destruct (nth_error (w_bodies w) i) as [b|] eqn:E; [|reflexivity]. cbn [option_map]. rewrite (at_field b_v _ _ _ E). now destruct b.
Qed.
Lemma init_forget o hd heap bs js dt eps tol fd ps sx (w : world R) : handler_frame hd -> world_init o hd heap bs js dt eps tol fd ps sx = Ok w -> map forget (w_bodies w) = map forget bs.
Proof.
  intros Hf H. unfold world_init in H. destruct bs as [|b0 bs]; [discriminate|]. bind_inv H as js' Ej. bind_inv H as w1 E1. bind_inv H as w2 E2.
  destruct (sx && negb (no_penetration w2)); [discriminate|]. injection H as <-. rewrite (find_contacts_frame _ _ _ _ Hf E2).
  f_equal. match type of E1 with set_v ?x _ = _ => apply (set_own_v x) in E1 end. exact E1.
Qed.
Lemma setup_start o gf paddle blocks ball vel w0 b0 rects i b : setup (st := st) o (diff_handler gf o) paddle blocks ball vel w0 b0 rects -> nth_error (w_bodies w0) i = Some b ->
  exists c, nth_error (b0 :: rects) i = Some c /\ forget b = forget c.
Proof.
  intros S H. pose proof (init_forget _ _ _ _ _ _ _ _ _ _ _ _ (diff_handler_frame gf o) (su_init _ _ _ _ _ _ _ _ _ S)) as E.
  apply (f_equal (fun l => nth_error l i)) in E. rewrite !nth_error_map, H in E. destruct (nth_error (b0 :: rects) i) as [c|]; [|discriminate]. exists c. split; [reflexivity|]. now injection E.
Qed.
Lemma forget_eq_p (b c : body R) : forget b = forget c -> b_p b = b_p c.
Proof. intros E. rewrite <- (forget_p b), E. apply forget_p. Qed.
Lemma forget_eq_v (b c : body R) : forget b = forget c -> b_v b = b_v c.
Proof. intros E. rewrite <- (forget_v b), E. apply forget_v. Qed.

(** *** C76: the walls, the stoppers and the blocks stay where they are *)
Lemma game_held la mi gf o paddle blocks ball vel w0 b0 rects w i b : lapack_ok la -> broadphase_sane o ->
  setup (st := st) o (diff_handler gf o) paddle blocks ball vel w0 b0 rects -> game la mi gf o w0 w -> (2 <= i)%nat -> nth_error (w_bodies w) i = Some b ->
  exists x a c wd h, nth_error (entries paddle blocks) (i - 1) = Some x /\ snd (fst x) = ([a; c], [wd; h]) /\ 0 < wd /\ 0 < h /\
    b_p b = (0, (a, c)) /\ b_verts b = corners wd h /\ is_circle b = false.
Proof.
  intros HL Ho St G Hi Hb. destruct i as [|[|i]]; [lia|lia|]. replace (S (S i) - 1)%nat with (S i) by lia.
  destruct (game_rect_now _ _ _ _ _ _ _ _ _ _ _ _ _ _ St G Hb) as (x & Ex & [(a & cy & wd & h & Ep & Hw & Hh & Ev) Hk _]).
  exists x, a, cy, wd, h. split; [exact Ex|]. split; [exact Ep|]. split; [exact Hw|]. split; [exact Hh|].
  destruct (game_exec _ _ _ _ _ _ G) as (fuel & ops & Hx). pose proof (setup_session la mi gf o _ _ _ _ _ _ _ _ Ho St (game_start _ _ _ _ _)) as S0.
  pose proof (world_steps _ shape_steps _ _ _ _ _ _ _ _ _ _ _ _ _ _ _ _ (diff_handler_frame gf o) (su_init _ _ _ _ _ _ _ _ _ St) Hx) as F.
  destruct (Forall2_nth _ _ _ _ _ F Hb) as (c & Hc & _).
  pose proof (init_forget _ _ _ _ _ _ _ _ _ _ _ _ (diff_handler_frame gf o) (su_init _ _ _ _ _ _ _ _ _ St)) as E0.
  apply (f_equal (fun l => nth_error l (S (S i)))) in E0. rewrite !nth_error_map, Hc in E0. destruct (nth_error (w_bodies w0) (S (S i))) as [b1|] eqn:Hb1; [|discriminate].
  assert (E : forget b1 = forget c) by (now injection E0).
  assert (Hin : In (total_init c) (map total_init (tl rects))). { apply in_map. cbn [nth_error] in Hc. destruct rects as [|? rs]; [discriminate|]. apply nth_error_In in Hc. exact Hc. }
  pose proof (session_held la mi o (diff_handler gf o) _ _ w0 fuel ops w HL S0 Hx (total_init c) (S (S i)) c b1 b Hin Hc eq_refl Hb1 Hb) as Q. cbn in Q.
  change (nth_error rects (S i) = Some c) in Hc. destruct (Forall2_nth _ _ _ _ _ (su_rects _ _ _ _ _ _ _ _ _ St) Hc) as (x' & Ex' & (a' & cy' & wd' & h' & Ep' & _ & _ & _ & Hp & _)).
  rewrite Ex in Ex'. injection Ex' as <-. rewrite Ep in Ep'. injection Ep' as <- <- <- <-. rewrite (forget_eq_p _ _ E), Hp in Q. split; [exact Q|]. split; [|exact Hk].
  rewrite Ev. unfold b_rot. rewrite Q. cbn [fst]. apply map_rotate_0.
Qed.

(** *** boxes that are apart have no contact *)
Lemma apart_sep d a1 c1 w1 h1 a2 c2 w2 h2 : 0 < w1 -> 0 < h1 -> 0 < w2 -> 0 < h2 ->
  apart d (Box (a1 - w1 / 2) (a1 + w1 / 2) (c1 - h1 / 2) (c1 + h1 / 2)) (Box (a2 - w2 / 2) (a2 + w2 / 2) (c2 - h2 / 2) (c2 + h2 / 2)) ->
  exists e m, In e (edges (corners w1 h1)) /\ separation (corners w2 h2) (v2sub (a2, c2) (a1, c1)) e m /\ d < m.
Proof.
  intros Hw1 Hh1 Hw2 Hh2.
  assert (D : forall p q l, 0 < l -> (fst p - fst q) * (fst p - fst q) + (snd p - snd q) * (snd p - snd q) = l * l -> dist p q = l).
  { intros p q l Hl E. unfold dist. rewrite E. now apply sqrt_square, Rlt_le. }
  assert (G : forall e n k, In e (edges (corners w1 h1)) -> (forall v, edge_dist e v = n v) -> (exists v, In v (corners w2 h2) /\ n (v2add v (v2sub (a2, c2) (a1, c1))) = k) ->
    (forall v, In v (corners w2 h2) -> k <= n (v2add v (v2sub (a2, c2) (a1, c1)))) -> d < k -> exists e m, In e (edges (corners w1 h1)) /\ separation (corners w2 h2) (v2sub (a2, c2) (a1, c1)) e m /\ d < m).
  { intros e n k He Hn (v & Hv & Ev) Hk Hd. exists e, k. split; [exact He|]. split; [|exact Hd]. split.
    - exists v. split; [exact Hv|]. now rewrite Hn.
    - intros u Hu. rewrite Hn. auto. }
  set (A := (w1 / 2, h1 / 2)). set (B := (- (w1 / 2), h1 / 2)). set (C := (- (w1 / 2), - (h1 / 2))). set (E := (w1 / 2, - (h1 / 2))).
  assert (L1 : dist A B = w1) by (apply D; [exact Hw1|cbn; field]). assert (L2 : dist B C = h1) by (apply D; [exact Hh1|cbn; field]).
  assert (L3 : dist C E = w1) by (apply D; [exact Hw1|cbn; field]). assert (L4 : dist E A = h1) by (apply D; [exact Hh1|cbn; field]).
  intros [H|[H|[H|H]]].
  - apply (G (E, A) (fun v => fst v - w1 / 2) (a2 - a1 - w2 / 2 - w1 / 2)); [cbn; tauto| | | |lra].
    + intros v. unfold edge_dist. cbn [fst snd]. rewrite L4. unfold tri2, det2, E, A. cbn [fst snd]. field. lra.
    + exists (- (w2 / 2), h2 / 2). split; [cbn; tauto|]. cbn. lra.
    + intros v Hv. destruct Hv as [<-|[<-|[<-|[<-|[]]]]]; cbn; lra.
  - apply (G (B, C) (fun v => - fst v - w1 / 2) (a1 - a2 - w2 / 2 - w1 / 2)); [cbn; tauto| | | |lra].
    + intros v. unfold edge_dist. cbn [fst snd]. rewrite L2. unfold tri2, det2, B, C. cbn [fst snd]. field. lra.
    + exists (w2 / 2, h2 / 2). split; [cbn; tauto|]. cbn. lra.
    + intros v Hv. destruct Hv as [<-|[<-|[<-|[<-|[]]]]]; cbn; lra.
  - apply (G (A, B) (fun v => snd v - h1 / 2) (c2 - c1 - h2 / 2 - h1 / 2)); [cbn; tauto| | | |lra].
    + intros v. unfold edge_dist. cbn [fst snd]. rewrite L1. unfold tri2, det2, B, A. cbn [fst snd]. field. lra.
    + exists (w2 / 2, - (h2 / 2)). split; [cbn; tauto|]. cbn. lra.
    + intros v Hv. destruct Hv as [<-|[<-|[<-|[<-|[]]]]]; cbn; lra.
  - apply (G (C, E) (fun v => - snd v - h1 / 2) (c1 - c2 - h2 / 2 - h1 / 2)); [cbn; tauto| | | |lra].
    + intros v. unfold edge_dist. cbn [fst snd]. rewrite L3. unfold tri2, det2, C, E. cbn [fst snd]. field. lra.
    + exists (w2 / 2, h2 / 2). split; [cbn; tauto|]. cbn. lra.
    + intros v Hv. destruct Hv as [<-|[<-|[<-|[<-|[]]]]]; cbn; lra.
Qed.
(** a body that is an upright box *)
Definition upright (b : body R) (s : piece) : Prop := exists a c w h, s = Box (a - w / 2) (a + w / 2) (c - h / 2) (c + h / 2) /\ 0 < w /\ 0 < h /\
  b_p b = (0, (a, c)) /\ b_verts b = corners w h /\ is_circle b = false.
Lemma upright_still b b' s : still b = still b' -> upright b s -> upright b' s.
Proof.
  intros E (a & c & w & h & Es & Hw & Hh & Hp & Hv & Hk). exists a, c, w, h. split; [exact Es|]. split; [exact Hw|]. split; [exact Hh|].
  assert (Ep : b_p b' = b_p b) by (apply (f_equal b_p) in E; unfold still in E; cbn in E; rewrite !forget_p in E; congruence).
  assert (Ev : b_verts b' = b_verts b). { apply (f_equal b_verts) in E. change (b_verts (forget b) = b_verts (forget b')) in E. rewrite !forget_verts in E. congruence. }
  split; [congruence|]. split; [congruence|]. unfold is_circle. rewrite Hv in Ev. unfold b_verts in Ev. destruct (b_kind b'); [discriminate Ev|reflexivity|reflexivity].
Qed.
Lemma apart_handler gf o eps clk bs i j b1 b2 s1 s2 cs bs' clk' : nth_error bs i = Some b1 -> nth_error bs j = Some b2 -> upright b1 s1 -> upright b2 s2 -> apart eps s1 s2 ->
  diff_handler (T := R) gf o eps clk bs i j = Ok (cs, bs', clk') -> cs = [].
Proof.
  intros H1 H2 (a1 & c1 & w1 & h1 & -> & Hw1 & Hh1 & Hp1 & Hv1 & Hk1) (a2 & c2 & w2 & h2 & -> & Hw2 & Hh2 & Hp2 & Hv2 & Hk2) Ha H.
  unfold diff_handler, get_body in H. rewrite H1, H2 in H. cbn [bind] in H. destruct (existsb _ _); [now injection H|]. rewrite Hk1, Hk2 in H. cbn [andb orb] in H.
  bind_inv H as r Er. destruct r as [[ps b1'] b2']. injection H as <- _ _. unfold hull_hull in Er. bind_inv Er as s Es.
  destruct (apart_sep _ _ _ _ _ _ _ _ _ Hw1 Hh1 Hw2 Hh2 Ha) as (e & m & He & Hm & Hd).
  assert (Hn : (0 < length (b_verts b1))%nat) by (rewrite Hv1; cbn; lia).
  destruct (sat_value _ _ _ _ Hn Es) as (_ & _ & Hs). assert (L : eps < sep_dist s).
  { destruct Hs as [Hs|Hs]; [exact Hs|]. specialize (Hs e m). rewrite Hv1, Hv2 in Hs. unfold offset, b_pos in Hs. rewrite Hp1, Hp2 in Hs. specialize (Hs He Hm). lra. }
  change (nltb eps (sep_dist s)) with (Rltb eps (sep_dist s)) in Er. destruct (Rltb_spec eps (sep_dist s)) as [_|Q]; [|lra]. injection Er as <- _ _. reflexivity.
Qed.

(** *** C76: which pieces can touch *)
Lemma apart_sym d s t : apart d s t -> apart d t s.
Proof. destruct s, t; cbn; tauto. Qed.
Lemma exclusions_in n k i : (k < n)%nat -> (i = 2 \/ i = 3 \/ (exists j, j < k /\ i = 7 + j))%nat -> In (7 + k, i)%nat (exclusions n).
Proof.
  intros Hk Hi. unfold exclusions. apply in_or_app. right. apply in_flat_map. exists k. split; [apply in_seq; lia|]. apply in_or_app.
  destruct Hi as [->|[->|(j & Hj & ->)]]; [left; cbn; tauto|left; cbn; tauto|right]. apply in_map_iff. exists j. split; [reflexivity|apply in_seq; lia].
Qed.
Lemma pair_cases paddle blocks ball i j s t : Forall (fun p => hanging (box_of p)) blocks -> (i < j)%nat ->
  nth_error (board paddle blocks ball) i = Some s -> nth_error (board paddle blocks ball) j = Some t ->
  may_touch i j \/ In (i, j) (exclusions (length blocks)) \/ In (j, i) (exclusions (length blocks)) \/ (2 <= i)%nat /\ apart (1 / 10) s t.
Proof.
  intros Hh Hij Hs Ht. assert (Lb : length (board paddle blocks ball) = (7 + length blocks)%nat) by (unfold board; rewrite app_length, map_length; reflexivity).
  assert (Hj : (j < 7 + length blocks)%nat) by (rewrite <- Lb; apply nth_error_Some; congruence).
  assert (F : forall a b, In (a, b) [(2, 1); (1, 3); (4, 1); (4, 2); (4, 3); (5, 2); (5, 0); (6, 3); (6, 0)]%nat -> In (a, b) (exclusions (length blocks))) by (intros a b H; apply in_or_app; left; exact H).
  destruct (Nat.lt_ge_cases j 7) as [J|J].
  - assert (Hi : (i < 7)%nat) by lia.
    destruct i as [|[|[|[|[|[|i]]]]]]; destruct j as [|[|[|[|[|[|[|j]]]]]]]; try lia;
      try (left; unfold may_touch; lia); try (right; left; apply F; cbn; tauto); try (right; right; left; apply F; cbn; tauto);
      right; right; right; (split; [lia|]); cbn in Hs, Ht; injection Hs as <-; injection Ht as <-; cbn; lra.
  - destruct i as [|[|[|[|i]]]]; [left; unfold may_touch; lia|left; unfold may_touch; lia| | |].
    + right; right; left. replace j with (7 + (j - 7))%nat by lia. apply exclusions_in; lia.
    + right; right; left. replace j with (7 + (j - 7))%nat by lia. apply exclusions_in; lia.
    + destruct (Nat.lt_ge_cases i 3) as [I|I].
      * right; right; right. split; [lia|]. unfold board in Ht. rewrite nth_error_app2 in Ht by (cbn; lia). cbn [length] in Ht. rewrite nth_error_map in Ht.
        destruct (nth_error blocks (j - 7)) as [p|] eqn:Ep; [|discriminate]. injection Ht as <-. rewrite Forall_forall in Hh. specialize (Hh p (nth_error_In _ _ Ep)).
        destruct (box_of p) as [|l r tp bt]; [destruct Hh|]. destruct Hh as [H1 H2].
        destruct i as [|[|[|i]]]; try lia; cbn in Hs; injection Hs as <-; cbn; lra.
      * right; right; left. replace j with (7 + (j - 7))%nat by lia. apply exclusions_in; [lia|]. right; right. exists (S (S (S (S i))) - 7)%nat. lia.
Qed.
Lemma current_report gf o w c : contacts_current o (diff_handler gf o) w -> In c (w_contacts w) -> broadphase_sane o ->
  (c_i1 c <> c_i2 c) /\ (c_i1 c < length (w_bodies w))%nat /\ (c_i2 c < length (w_bodies w))%nat /\
  exists new, In c new /\ reported (diff_handler gf o) (w_eps w) (w_bodies w) (c_i1 c) (c_i2 c) new.
Proof.
  intros (k & calls & Hk & Hw & Hr) Hc Ho. rewrite Hw in Hc. apply in_flat_map in Hc. destruct Hc as ([[i j] new] & Hin & Hc). cbn [snd] in Hc.
  pose proof (Hr i j new Hin) as Hrep. destruct (Hr i j new Hin) as (clk & bs0 & bs1 & clk1 & Hs & Hd). destruct (diff_handler_idx _ _ _ _ _ _ _ _ _ _ _ Hd Hc) as [<- <-].
  assert (Hp : In (c_i1 c, c_i2 c) (map fst calls)) by (apply in_map_iff; eexists; split; [|exact Hin]; reflexivity). rewrite Hk in Hp. apply Ho in Hp. rewrite map_length in Hp.
  destruct Hp as (P1 & P2 & P3). split; [exact P1|]. split; [exact P2|]. split; [exact P3|]. exists new. auto.
Qed.
Lemma game_length la mi gf o paddle blocks ball vel w0 b0 rects w : setup (st := st) o (diff_handler gf o) paddle blocks ball vel w0 b0 rects -> game la mi gf o w0 w -> length (w_bodies w) = (7 + length blocks)%nat.
Proof.
  intros St G. destruct (game_exec _ _ _ _ _ _ G) as (fuel & ops & Hx).
  pose proof (world_steps _ shape_steps _ _ _ _ _ _ _ _ _ _ _ _ _ _ _ _ (diff_handler_frame gf o) (su_init _ _ _ _ _ _ _ _ _ St) Hx) as F. apply Forall2_len in F. cbn [length] in F.
  rewrite (setup_length _ _ _ _ _ _ _ _ _ St) in F. lia.
Qed.
Lemma entries_nth paddle blocks ball i x : nth_error (entries paddle blocks) i = Some x -> nth_error (board paddle blocks ball) (S i) = Some (box_of (snd (fst x))).
Proof.
  intros H. pose proof (entries_board paddle blocks ball) as E. apply (f_equal (fun l => nth_error l i)) in E. rewrite nth_error_map, H in E. cbn [option_map] in E.
  rewrite E. unfold board. reflexivity.
Qed.
Lemma game_upright la mi gf o paddle blocks ball vel w0 b0 rects w i b : lapack_ok la -> broadphase_sane o ->
  setup (st := st) o (diff_handler gf o) paddle blocks ball vel w0 b0 rects -> game la mi gf o w0 w -> (2 <= i)%nat -> nth_error (w_bodies w) i = Some b ->
  exists s, nth_error (board paddle blocks ball) i = Some s /\ upright b s.
Proof.
  intros HL Ho St G Hi Hb. destruct (game_held _ _ _ _ _ _ _ _ _ _ _ _ _ _ HL Ho St G Hi Hb) as (x & a & c & wd & h & Ex & Ep & Hw & Hh & Hp & Hv & Hk).
  apply (entries_nth _ _ ball) in Ex. replace (S (i - 1)) with i in Ex by lia. eexists. split; [exact Ex|]. exists a, c, wd, h. rewrite Ep. cbn [box_of fst snd nth]. auto 8.
Qed.
Lemma upright_fills b s : upright b s -> fills b s.
Proof.
  intros (a & c & wd & h & -> & Hw & Hh & Hp & Hv & Hk) q. unfold body_points. unfold is_circle in Hk.
  assert (E : body_points b q <-> in_hull (b_verts b) (v2sub q (b_pos b))). { unfold body_points. unfold b_verts. destruct (b_kind b); [discriminate|reflexivity|reflexivity]. }
  unfold body_points in E. rewrite E, Hv. unfold b_pos. rewrite Hp. cbn [snd]. rewrite corners_hull by assumption. cbn. lra.
Qed.
Lemma setup_contacts la mi gf o paddle blocks ball vel w0 b0 rects w c : lapack_ok la -> broadphase_sane o -> Forall (fun p => hanging (box_of p)) blocks ->
  setup (st := st) o (diff_handler gf o) paddle blocks ball vel w0 b0 rects -> game la mi gf o w0 w -> In c (w_contacts w) -> may_touch (c_i1 c) (c_i2 c) \/ may_touch (c_i2 c) (c_i1 c).
Proof.
  intros HL Ho Hh St G Hc.
  pose proof (setup_session la mi gf o _ _ _ _ _ _ _ _ Ho St G) as Hs. pose proof (session_current _ _ _ _ _ _ _ Hs) as Cu. destruct (session_facts _ _ _ _ _ _ _ Hs) as (Hf & Hr & _).
  destruct (current_report _ _ _ _ Cu Hc Ho) as (Hne & L1 & L2 & new & Hin & Hrep).
  destruct (game_exec _ _ _ _ _ _ G) as (fuel & ops & Hx). pose proof (su_init _ _ _ _ _ _ _ _ _ St) as H0. destruct (su_pre _ _ _ _ _ _ _ _ _ St) as (bs & Ebs). rewrite Ebs in H0.
  assert (Eps : w_eps w = 1 / 10). { apply exec_cfg in Hx. apply cfg_fields in Hx. apply world_init_inv in H0. unfold EPSILON in H0. rnum. assert (Q : w_eps w = w_eps w0) by tauto. rewrite Q. destruct H0 as (_ & E & _). rewrite E. reflexivity. }
  assert (X : forall i j, In (i, j) (exclusions (length blocks)) -> (i = c_i1 c /\ j = c_i2 c \/ i = c_i2 c /\ j = c_i1 c) -> False).
  { intros i j Hi Hij. assert (Hd : i <> j) by lia. pose proof (no_contact_respected fuel o _ _ _ _ _ _ _ _ _ _ _ _ ops w0 w i j c Hf Hr H0 Hx Hi Hd Hc) as [N1 N2]. destruct Hij as [[E1 E2]|[E1 E2]]; [apply N1|apply N2]; auto. }
  assert (Lb : length (board paddle blocks ball) = length (w_bodies w)) by (rewrite (game_length _ _ _ _ _ _ _ _ _ _ _ _ St G); unfold board; rewrite app_length, map_length; reflexivity).
  destruct (nth_error (board paddle blocks ball) (c_i1 c)) as [s1|] eqn:S1; [|apply nth_error_None in S1; lia].
  destruct (nth_error (board paddle blocks ball) (c_i2 c)) as [s2|] eqn:S2; [|apply nth_error_None in S2; lia].
  assert (A : (2 <= c_i1 c)%nat -> (2 <= c_i2 c)%nat -> apart (1 / 10) s1 s2 -> False).
  { intros I1 I2 Ha. destruct (nth_error (w_bodies w) (c_i1 c)) as [b1|] eqn:B1; [|apply nth_error_None in B1; lia]. destruct (nth_error (w_bodies w) (c_i2 c)) as [b2|] eqn:B2; [|apply nth_error_None in B2; lia].
    destruct (game_upright _ _ _ _ _ _ _ _ _ _ _ _ _ _ HL Ho St G I1 B1) as (s1' & S1' & U1). destruct (game_upright _ _ _ _ _ _ _ _ _ _ _ _ _ _ HL Ho St G I2 B2) as (s2' & S2' & U2).
    rewrite S1 in S1'. injection S1' as <-. rewrite S2 in S2'. injection S2' as <-.
    destruct Hrep as (clk & bs0 & bs1 & clk1 & Hst & Hd). destruct (still_nth _ _ _ _ Hst B1) as (a1 & A1 & E1). destruct (still_nth _ _ _ _ Hst B2) as (a2 & A2 & E2).
    rewrite Eps in Hd. rewrite (apart_handler _ _ _ _ _ _ _ _ _ _ _ _ _ _ A1 A2 (upright_still _ _ _ (eq_sym E1) U1) (upright_still _ _ _ (eq_sym E2) U2) Ha Hd) in Hin. destruct Hin. }
  destruct (Nat.lt_total (c_i1 c) (c_i2 c)) as [L|[L|L]]; [|lia|].
  - destruct (pair_cases _ _ _ _ _ _ _ Hh L S1 S2) as [Q|[Q|[Q|[Q1 Q2]]]]; [left; exact Q|exfalso; eapply X; eauto|exfalso; eapply X; eauto|exfalso; apply A; [exact Q1|lia|exact Q2]].
  - destruct (pair_cases _ _ _ _ _ _ _ Hh L S2 S1) as [Q|[Q|[Q|[Q1 Q2]]]]; [right; exact Q|exfalso; eapply X; eauto|exfalso; eapply X; eauto|exfalso; apply A; [lia|exact Q1|now apply apart_sym]].
Qed.
End Games.
Lemma game_still la mi gf o paddle blocks ball vel w0 w i s : plain paddle -> Forall plain blocks -> plain_ball ball -> lapack_ok la -> broadphase_sane o ->
  make_world o (diff_handler gf o) paddle blocks ball vel = Ok w0 -> game la mi gf o w0 w -> (2 <= i)%nat -> nth_error (board paddle blocks ball) i = Some s ->
  exists b, nth_error (w_bodies w) i = Some b /\ fills b s /\ b_rot b = 0.
Proof.
  intros Hp Hb Hball HL Ho H G Hi Hs. destruct (make_world_setup _ _ _ _ _ _ _ Hp Hb Hball H) as (b0 & rects & St).
  assert (Hl : (i < length (w_bodies w))%nat).
  { rewrite (game_length _ _ _ _ _ _ _ _ _ _ _ _ St G). assert (Lb : length (board paddle blocks ball) = (7 + length blocks)%nat) by (unfold board; rewrite app_length, map_length; reflexivity). rewrite <- Lb. apply nth_error_Some. congruence. }
  destruct (nth_error (w_bodies w) i) as [b|] eqn:Eb; [|apply nth_error_None in Eb; lia]. exists b. split; [reflexivity|].
  destruct (game_upright _ _ _ _ _ _ _ _ _ _ _ _ _ _ HL Ho St G Hi Eb) as (s' & Hs' & U). rewrite Hs in Hs'. injection Hs' as <-. split; [now apply upright_fills|].
  destruct U as (? & ? & ? & ? & _ & _ & _ & E & _). unfold b_rot. now rewrite E.
Qed.
Lemma game_contacts la mi gf o paddle blocks ball vel w0 w c : plain paddle -> Forall plain blocks -> plain_ball ball -> lapack_ok la -> broadphase_sane o -> Forall (fun p => hanging (box_of p)) blocks ->
  make_world o (diff_handler gf o) paddle blocks ball vel = Ok w0 -> game la mi gf o w0 w -> In c (w_contacts w) -> may_touch (c_i1 c) (c_i2 c) \/ may_touch (c_i2 c) (c_i1 c).
Proof.
  intros Hp Hb Hball HL Ho Hh H G Hc. destruct (make_world_setup _ _ _ _ _ _ _ Hp Hb Hball H) as (b0 & rects & St). exact (setup_contacts _ _ _ _ _ _ _ _ _ _ _ _ _ HL Ho Hh St G Hc).
Qed.

(** *** C76: bodies nothing touches go on with their velocity *)
Lemma session_on la mi o hd bs js w fuel ops w' : session la mi o hd bs js w -> exec fuel o hd (pdipm_engine la mi) ops w = Ok w' -> session la mi o hd bs js w'.
Proof.
  intros [f gf heap dt eps tol fd ps st w0 ops0 Hh Ho Hn Hb Ha H0 Hx] H. destruct (exec_join _ _ _ _ _ _ _ _ _ _ Hx H) as [g Hg]. eapply session_history; eauto.
Qed.
Lemma coast_step la mi o hd bs js w fuel dt w' i b : lapack_ok la -> session la mi o hd bs js w -> w_post_stab w = false -> step_dt fuel o hd (pdipm_engine la mi) w dt = Ok w' ->
  untouched w i -> nth_error (w_bodies w) i = Some b -> b_forces b = [] -> b_mass b <> 0 -> b_inertia b <> 0 ->
  exists b', nth_error (w_bodies w') i = Some b' /\ b_v b' = b_v b /\ b_p b' = v3add (b_p b) (v3scale (w_t w' - w_t w) (b_v b)) /\
    b_forces b' = [] /\ b_mass b' <> 0 /\ b_inertia b' <> 0.
Proof.
  intros HL Hs Hp H U Hb Hf Hm Hi. destruct (session_free _ _ _ _ _ _ _ _ _ _ _ _ HL Hs H U Hb) as (k & f & b' & Ef & Et & Hb' & Q & Hpose).
  specialize (Hpose Hp). destruct (apply_forces_layout _ _ _ Ef) as [_ Lf]. specialize (Lf i b Hb). unfold body_apply_forces in Lf. rewrite Hf in Lf. cbn [mapM bind fold_left] in Lf.
  assert (Zf : v3_at f i = v3zero) by (assert (X : forall a b : v3 R, Ok a = Ok b -> a = b) by congruence; symmetry; now apply X). clear Lf.
  rewrite Zf in Q. assert (Ev : b_v b' = b_v b).
  { destruct (b_v b) as [r [x y]], (b_v b') as [r' [x' y']]. unfold body_momentum, v3add, v3scale, v3zero, v2zero, v2add, v2scale in Q. cbn [fst snd] in Q. rnum.
    injection Q as Q1 Q2 Q3. apply f_equal2; [apply (Rmult_eq_reg_l (b_inertia b)); [lra|exact Hi]|]. apply f_equal2; apply (Rmult_eq_reg_l (b_mass b)); try exact Hm; lra. }
  exists b'. split; [exact Hb'|]. split; [exact Ev|]. split.
  - rewrite Hpose, Ev, Et. f_equal. f_equal. lra.
  - destruct (session_facts _ _ _ _ _ _ _ Hs) as (Hfr & _).
    assert (F : Forall2 same_attrs (w_bodies w) (w_bodies w')) by (apply (exec_bodies _ same_attrs_steps fuel o hd (pdipm_engine la mi) [OStepDt dt]); [exact Hfr|cbn; now rewrite H]).
    destruct (Forall2_nth _ _ _ _ _ F Hb') as (b1 & Hb1 & Sa). rewrite Hb in Hb1. injection Hb1 as <-. destruct Sa as (_ & E1 & E2 & _ & _ & _ & E3 & _). rewrite E1, E2, E3. auto.
Qed.
Lemma coast_chain la mi o hd bs js fuel w l w' : lapack_ok la -> substeps fuel o hd (pdipm_engine la mi) w l w' -> forall i b, session la mi o hd bs js w -> w_post_stab w = false ->
  (forall u, In u l -> untouched u i) -> nth_error (w_bodies w) i = Some b -> b_forces b = [] -> b_mass b <> 0 -> b_inertia b <> 0 ->
  exists b', nth_error (w_bodies w') i = Some b' /\ b_v b' = b_v b /\ b_p b' = v3add (b_p b) (v3scale (w_t w' - w_t w) (b_v b)).
Proof.
  intros HL H. induction H as [w|w dt w1 l w' H Hc IH]; intros i b Hs Hp HU Hb Hf Hm Hi.
  - exists b. split; [exact Hb|]. split; [reflexivity|]. destruct (b_p b) as [r [x y]]. unfold v3add, v3scale, v2add, v2scale. cbn [fst snd]. rnum. apply f_equal2; [ring|]. apply f_equal2; ring.
  - destruct (coast_step _ _ _ _ _ _ _ _ _ _ _ _ HL Hs Hp H (HU w (or_introl eq_refl)) Hb Hf Hm Hi) as (b1 & Hb1 & Ev & Ep & F1 & M1 & I1).
    assert (X : exec fuel o hd (pdipm_engine la mi) [OStepDt dt] w = Ok w1) by (cbn; now rewrite H).
    assert (P1 : w_post_stab w1 = false) by (apply exec_cfg in X; apply cfg_fields in X; destruct X as (_ & _ & _ & _ & _ & X & _); congruence).
    destruct (IH i b1 (session_on _ _ _ _ _ _ _ _ _ _ Hs X) P1 (fun u Hu => HU u (or_intror Hu)) Hb1 F1 M1 I1) as (b' & Hb' & Ev' & Ep'). exists b'. split; [exact Hb'|]. split; [congruence|].
    rewrite Ep', Ep, Ev. destruct (b_p b) as [r [x y]], (b_v b) as [r' [x' y']]. unfold v3add, v3scale, v2add, v2scale. cbn [fst snd]. rnum. apply f_equal2; [ring|]. apply f_equal2; ring.
Qed.
Lemma fixed_substeps f g o hd e et (w w' : world R) : fixed_loop f g o hd e et w = Ok w' -> exists l, substeps g o hd e w l w'.
Proof.
  revert w. induction f as [|f IH]; intros w H; [discriminate|]. cbn [fixed_loop] in H. destruct (_ <? _)%num; [|injection H as <-; exists []; constructor].
  bind_inv H as w1 E. destruct (IH w1 H) as [l Hl]. exists (w :: l). econstructor; eauto.
Qed.
Lemma pushed_v a vx vy (v : vec R) i : (6 <= length v)%nat -> v3_at (upd (upd v 4 (vx * a)) 5 (vy * a)) i = pushed a vx vy i (v3_at v i).
Proof.
  intros L. unfold pushed. do 6 (destruct v as [|? v]; [cbn in L; lia|]). cbn [upd]. destruct i as [|[|i]]; [reflexivity|reflexivity|]. cbn [Nat.eqb].
  unfold v3_at, vget. replace (3 * S (S i))%nat with (6 + 3 * i)%nat by lia. reflexivity.
Qed.
Lemma loose b0 rects n J0 w j i1 i2 : map b_id (b0 :: rects) = seq 0 n -> sound (b0 :: rects) (map total_init (tl rects)) J0 w -> In (j, i1, i2) (w_joints w) -> (2 <= i1)%nat /\ i2 = None.
Proof.
  intros Id Sd Hin. destruct (so_found _ _ _ _ Sd) as (Hnd & _ & He & [_ Hj] & _). apply In_nth_error in Hin. destruct Hin as [k Hk].
  destruct (Forall2_nth _ _ _ _ _ Hj Hk) as ([[j0 m1] m2] & Hk0 & (-> & -> & _)). destruct (Forall2_nth _ _ _ _ _ He Hk0) as (t & Ht & (_ & (b1 & Hb1 & Eb1) & E2)).
  rewrite nth_error_map in Ht. destruct (nth_error (tl rects) k) as [c|] eqn:Ec; [|discriminate]. cbn in Ht. injection Ht as <-.
  assert (Ec' : nth_error (b0 :: rects) (S (S k)) = Some c) by (destruct rects; [destruct k; discriminate|exact Ec]).
  change (b_id b1 = b_id c) in Eb1. change (match m2 with Some _ => False | None => True end) in E2. split; [|destruct m2; [destruct E2|reflexivity]].
  assert (Q : m1 = S (S k)). { apply (NoDup_nth_error (map b_id (b0 :: rects))); [exact Hnd|rewrite map_length; apply nth_error_Some; congruence|]. rewrite !nth_error_map, Hb1, Ec'. cbn. congruence. }
  lia.
Qed.
Lemma substeps_loose la mi o hd b0 rects n fuel w l w' i : map b_id (b0 :: rects) = seq 0 n -> substeps fuel o hd (pdipm_engine la mi) w l w' -> session la mi o hd (b0 :: rects) (map total_init (tl rects)) w -> (i < 2)%nat ->
  (forall u, In u l -> no_contact_of u i) -> forall u, In u l -> untouched u i.
Proof.
  intros Id H Hs Hi. induction H as [w|w dt w1 l w' H Hc IH]; intros HU u Hu; [destruct Hu|]. destruct Hu as [<-|Hu].
  - destruct (session_facts _ _ _ _ _ _ _ Hs) as (_ & _ & _ & _ & J0 & Sd & _). split; [exact (HU w (or_introl eq_refl))|]. intros j i1 i2 Hin. destruct (loose _ _ _ _ _ _ _ _ Id Sd Hin) as [L ->]. split; [lia|discriminate].
  - apply IH; [|intros v Hv; apply HU; now right|exact Hu]. assert (X : exec fuel o hd (pdipm_engine la mi) [OStepDt dt] w = Ok w1) by (cbn; now rewrite H). exact (session_on _ _ _ _ _ _ _ _ _ _ Hs X).
Qed.
Lemma game_moves la mi gf o paddle blocks ball vel w0 w fuel a vx vy w' : plain paddle -> Forall plain blocks -> plain_ball ball -> snd ball <> 0 -> lapack_ok la -> broadphase_sane o ->
  make_world o (diff_handler gf o) paddle blocks ball vel = Ok w0 -> game la mi gf o w0 w -> step_breakout fuel o (diff_handler gf o) (pdipm_engine la mi) w 1 a vx vy = Ok w' ->
  w_t w' = w_t w + 1 /\ exists w1 l, substeps fuel o (diff_handler gf o) (pdipm_engine la mi) w1 l w' /\
    map b_p (w_bodies w1) = map b_p (w_bodies w) /\ w_contacts w1 = w_contacts w /\
    forall i b, (i < 2)%nat -> nth_error (w_bodies w) i = Some b -> (forall u, In u l -> no_contact_of u i) ->
      exists b', nth_error (w_bodies w') i = Some b' /\ b_v b' = pushed a vx vy i (b_v b) /\ b_p b' = v3add (b_p b) (pushed a vx vy i (b_v b)).
Proof.
  intros Hp Hb Hball Hr HL Ho H G HX. destruct (make_world_setup _ _ _ _ _ _ _ Hp Hb Hball H) as (b0 & rects & St).
  pose proof (setup_session la mi gf o _ _ _ _ _ _ _ _ Ho St G) as Hs. destruct (game_exec _ _ _ _ _ _ G) as (f0 & ops & Hx).
  assert (Cf : w_dt w = 1 /\ w_post_stab w = false).
  { apply exec_cfg in Hx. apply cfg_fields in Hx. destruct Hx as (_ & E1 & _ & _ & _ & E2 & _). pose proof (su_init _ _ _ _ _ _ _ _ _ St) as H0. apply world_init_inv in H0.
    destruct H0 as (E3 & _ & _ & _ & E4 & _). rewrite E1, E2, E3, E4. split; reflexivity. }
  destruct Cf as [Cdt Cps]. unfold step_breakout in HX. cbv zeta in HX. bind_inv HX as w1 E1. change (3 * 1 + 1)%nat with 4%nat in E1. change (3 * 1 + 2)%nat with 5%nat in E1. rnum.
  assert (X1 : exec fuel o (diff_handler gf o) (pdipm_engine la mi) [OSetV (upd (upd (w_v w) 4 (vx * a)) 5 (vy * a))] w = Ok w1) by (cbn; now rewrite E1).
  pose proof (session_on _ _ _ _ _ _ _ _ _ _ Hs X1) as Hs1.
  destruct (session_facts _ _ _ _ _ _ _ Hs) as (Hf & _ & _ & _ & J0 & S & _).
  pose proof (game_length _ _ _ _ _ _ _ _ _ _ _ _ St G) as Ln.
  assert (W1 : w1 = with_state w (mapi (fun i b => with_v b (v3_at (upd (upd (w_v w) 4 (vx * a)) 5 (vy * a)) i)) (w_bodies w)) (w_joints w) (w_t w) (upd (upd (w_v w) 4 (vx * a)) 5 (vy * a)) (w_contacts w) (w_cache w) (w_clk w)) by (apply set_v_inv in E1; tauto).
  assert (Lv : length (w_v w) = (3 * length (w_bodies w))%nat) by (apply set_v_inv in E1; destruct E1 as [E _]; rewrite !upd_length in E; exact E).
  pose proof HX as Ht. apply fixed_step_time in Ht; [|rewrite W1; cbn; rewrite Cdt; rnum; lra].
  assert (T1 : w_t w1 = w_t w /\ w_dt w1 = 1 /\ w_post_stab w1 = false /\ w_contacts w1 = w_contacts w) by (rewrite W1; cbn; auto). destruct T1 as (T1 & D1 & P1 & C1). rewrite T1, D1 in Ht. split; [rnum; lra|].
  unfold step in HX. destruct (fixed_substeps _ _ _ _ _ _ _ _ HX) as [l Hl]. exists w1, l. split; [exact Hl|]. split.
  { rewrite W1. cbn [w_bodies with_state]. apply nth_error_ext. intros i. rewrite !nth_error_map, mapi_nth. now destruct (nth_error (w_bodies w) i). }
  split; [exact C1|]. intros i b Hi Hbi HU. pose proof (substeps_loose _ _ _ _ _ _ _ _ _ _ _ i (setup_ids _ _ _ _ _ _ _ _ _ St) Hl Hs1 Hi HU) as HU'. clear HU. rename HU' into HU.
  assert (Hb1 : nth_error (w_bodies w1) i = Some (with_v b (pushed a vx vy i (b_v b)))).
  { rewrite W1. cbn [w_bodies with_state]. rewrite mapi_nth, Hbi. cbn [option_map]. rewrite pushed_v by lia. now rewrite <- (aligned_reads _ _ _ (so_v _ _ _ _ S) Hbi). }
  pose proof (world_steps _ same_attrs_steps _ _ _ _ _ _ _ _ _ _ _ _ _ _ _ _ Hf (su_init _ _ _ _ _ _ _ _ _ St) Hx) as F.
  destruct (Forall2_nth _ _ _ _ _ F Hbi) as (c & Hc & Sa). destruct Sa as (_ & M1 & I1 & _ & _ & _ & F1 & _).
  assert (K : b_mass c = 1 /\ b_inertia c <> 0 /\ b_forces c = []).
  { destruct i as [|[|i]]; [| |lia].
    - cbn in Hc. injection Hc as <-. destruct (su_ball _ _ _ _ _ _ _ _ _ St) as (_ & Q1 & Q2 & _ & _ & _ & Q3 & _). split; [exact Q1|]. split; [|exact Q3]. rewrite Q2. nra.
    - cbn [nth_error] in Hc. destruct (Forall2_nth _ _ _ 0%nat c (su_rects _ _ _ _ _ _ _ _ _ St)) as (x & _ & (aa & cc & wd & h & _ & Hw & Hh & _ & _ & _ & _ & Q1 & Q2 & _ & _ & _ & Q3 & _)); [destruct rects; [discriminate|exact Hc]|].
      split; [exact Q1|]. split; [|exact Q3]. rewrite Q2. nra. }
  destruct K as (K1 & K2 & K3).
  destruct (coast_chain _ _ _ _ _ _ _ _ _ _ HL Hl i _ Hs1 P1 HU Hb1) as (b' & Hb' & Ev & Ep); [cbn; congruence|cbn; rewrite M1, K1; lra|cbn; congruence|].
  exists b'. split; [exact Hb'|]. split; [exact Ev|]. rewrite Ep. cbn [b_p b_v with_v]. rewrite T1, Ht. f_equal. destruct (pushed a vx vy i (b_v b)) as [r [x y]]. unfold v3scale, v2scale. cbn [fst snd]. rnum.
  apply f_equal2; [ring|]. apply f_equal2; ring.
Qed.
