(** Concrete real-number worlds for the non-vacuity examples about the engine *)
From Coq Require Import List Arith ZArith Lia Bool Reals Lra.
From Verif Require Import Num Tensor Utils Bodies Forces Constraints Contacts World Lapack LapackRef Pdipm Lcp Engines
     Spec GeoSpec BodySpec JointSpec FreshSpec EngineSpec ResFacts RBase LinAlg LapackSpec PdipmSpec LuFacts HandlerFacts LayoutFacts EngineFacts ContactSys EngineBalance FloatEx RealEx ContactEx RunTotal.
Import ListNotations.
Open Scope R_scope.

(** a unit disc of mass 1 centred on the x axis: velocity, restitution and friction coefficient *)
Definition disc (id : nat) (x vx vy e mu : R) : body R := get dummy_body (circle_init id [x; 0] 1 [0; vx; vy] 1 e mu (1/10)).
(** the contact of discs [i] at x and [j] at x + 2 *)
Definition touch (i j : nat) : contact R := mkContact (-1, 0) (1, 0) (-1, 0) 0 i j.
Definition disc_hd : handler R := diff_handler 10 pair_oracle.
Definition disc_world (bs : list (body R)) (cs : list (contact R)) : world R :=
  mkWorld bs [] [] 0 (1/2) (1/10) 0 2 false false (cat3 (map b_v bs)) cs true 0 (world_M bs) None 1.

Lemma disc_touch i j x y vx vy e mu vx' vy' e' mu' : y = x + 2 ->
  circle_circle (disc i x vx vy e mu) (disc j y vx' vy' e' mu') (1/10) = [((-1, 0), (1, 0), (-1, 0), 0)].
Proof.
  intros ->. unfold circle_circle, v2norm, v2dot, v2sub. cbn -[Rltb]. rewrite sqrt_axis by lra. replace (x - (x + 2)) with (- (2)) by ring. rewrite Rabs_left by lra.
  replace (Rltb (1 + 1 - - - (2)) (- (1 / 10))) with false by (symmetry; apply Rltb_false; lra).
  apply f_equal2; [|reflexivity]. unfold v2div, v2scale, v2opp. cbn [fst snd]. rnum. apply f_equal2; [apply f_equal2; [apply f_equal2|]|lra]; apply f_equal2; field.
Qed.
Lemma disc_far i j x y vx vy e mu vx' vy' e' mu' : x + 3 < y ->
  circle_circle (disc i x vx vy e mu) (disc j y vx' vy' e' mu') (1/10) = [].
Proof.
  intros H. unfold circle_circle, v2norm, v2dot, v2sub. cbn -[Rltb]. rewrite sqrt_axis by lra. rewrite Rabs_left by lra.
  now replace (Rltb (1 + 1 - - (x - y)) (- (1 / 10))) with true by (symmetry; apply Rltb_true; lra).
Qed.
Lemma disc_available id x vx vy e mu : available (disc id x vx vy e mu).
Proof. exists (disc id x vx vy e mu), []. split; [left|reflexivity]. exists id, [x; 0], 1, [0; vx; vy], 1, e, mu, (1/10). reflexivity. Qed.

Lemma disc_call fuel (o : oracle R) eps clk bs i j a b x y vx vy e mu vx' vy' e' mu' :
  nth_error bs i = Some (disc a x vx vy e mu) -> nth_error bs j = Some (disc b y vx' vy' e' mu') ->
  diff_handler fuel o eps clk bs i j = Ok (mk_contacts i j (circle_circle (disc a x vx vy e mu) (disc b y vx' vy' e' mu') eps), bs, clk).
Proof. intros H1 H2. unfold diff_handler, get_body. rewrite H1, H2. reflexivity. Qed.

(** two touching discs *)
Section Two.
Variables (vx vy e mu vx' vy' e' mu' : R).
Definition two_discs : list (body R) := [disc 0 0 vx vy e mu; disc 1 2 vx' vy' e' mu'].
Definition two_disc_world : world R := disc_world two_discs [touch 0 1].
Lemma two_init : world_init pair_oracle disc_hd [] two_discs [] (1/2) (1/10) 0 2 false false = Ok two_disc_world.
Proof.
  unfold world_init, two_discs. cbn [mapM bind forallb fold_left]. change (nofZ 0) with (IZR 0).
  unfold set_v. rewrite cat3_length, map_length. cbn [w_bodies length Nat.eqb Nat.mul Nat.add bind].
  unfold find_contacts. cbn [w_bodies with_state w_clk w_eps o_collide pair_oracle].
  change (all_pairs _) with [(0, 1)]%nat. cbn [fold_left].
  unfold disc_hd, diff_handler. cbn -[circle_circle disc world_M].
  change (with_v (disc 0 0 vx vy e mu) _) with (disc 0 0 vx vy e mu). change (with_v (disc 1 2 vx' vy' e' mu') _) with (disc 1 2 vx' vy' e' mu').
  rewrite disc_touch by lra. reflexivity.
Qed.
Lemma two_engine_world mi : engine_world ref_lapack mi two_discs [] two_disc_world.
Proof.
  apply (engine_history _ _ _ _ _ 0 10 pair_oracle disc_hd [] (1/2) (1/10) 0 2 false false two_disc_world []).
  - left; reflexivity.
  - apply pair_sane.
  - constructor; [cbn; intuition discriminate|constructor; [cbn; tauto|constructor]].
  - constructor.
  - exact two_init.
  - reflexivity.
Qed.
Lemma two_forces : world_apply_forces two_disc_world (w_t two_disc_world) = Ok (vzeros 6).
Proof. unfold world_apply_forces. cbn. rnum. reflexivity. Qed.
End Two.

(** discs that slide past each other while they collide: mu = 1/2, e = 1/2 *)
Definition slide_world : world R := two_disc_world 1 10 (1/2) (1/2) (-1) 0 (1/2) (1/2).
Definition slide_rhs : vec R := vadd (mv (w_M slide_world) (w_v slide_world)) (vscale (1/2) (vzeros 6)).
(** the collision: normal impulse 3/2, full friction 3/4 against the slip of 11/2 *)
Definition slide_solution : iter R :=
  {| i_x := [3/2; 1/2; -37/4; 3/2; -1/2; -3/4]; i_s := [0; 11; 0; 0]; i_z := [3/2; 0; 3/4; 11/2]; i_y := [] |}.
Lemma slide_problem : exists pr, contact_problem slide_world slide_rhs = Ok pr /\ solves_lcp 6 4 0 pr slide_solution.
Proof.
  eexists. split; [reflexivity|]. constructor.
  - constructor; reflexivity.
  - lazy -[Rplus Rmult Rdiv Rinv Rminus Ropp IZR]. repeat (apply f_equal2; [field|]). reflexivity.
  - lazy -[Rplus Rmult Rdiv Rinv Rminus Ropp IZR]. repeat (apply f_equal2; [field|]). reflexivity.
  - reflexivity.
  - repeat (apply Forall_cons; [lra|]). apply Forall_nil.
  - repeat (apply Forall_cons; [lra|]). apply Forall_nil.
  - intros [|[|[|[|[|i]]]]]; unfold vget; cbn; rnum; try ring; destruct i; ring.
Qed.

(** three discs in a row, each touching the next *)
Section Three.
Variables (vx e vx' e' vx'' e'' : R).
Definition three_discs : list (body R) := [disc 0 0 vx 0 e 0; disc 1 2 vx' 0 e' 0; disc 2 4 vx'' 0 e'' 0].
Definition three_disc_world : world R := disc_world three_discs [touch 0 1; touch 1 2].
Lemma three_init : world_init pair_oracle disc_hd [] three_discs [] (1/2) (1/10) 0 2 false false = Ok three_disc_world.
Proof.
  unfold world_init, three_discs. cbn [mapM bind forallb fold_left]. change (nofZ 0) with (IZR 0).
  unfold set_v. rewrite cat3_length, map_length. cbn [w_bodies length Nat.eqb Nat.mul Nat.add bind].
  unfold find_contacts. cbn [w_bodies with_state w_clk w_eps o_collide pair_oracle].
  change (all_pairs _) with [(0, 1); (0, 2); (1, 2)]%nat. cbn [fold_left].
  cbn [map mapi mapi_from].
  change (with_v (disc 0 0 vx 0 e 0) _) with (disc 0 0 vx 0 e 0). change (with_v (disc 1 2 vx' 0 e' 0) _) with (disc 1 2 vx' 0 e' 0). change (with_v (disc 2 4 vx'' 0 e'' 0) _) with (disc 2 4 vx'' 0 e'' 0).
  unfold disc_hd. cbn [bind]. erewrite (disc_call 10 pair_oracle (1/10) _ _ 0 1) by reflexivity. cbn [bind]. erewrite (disc_call 10 pair_oracle (1/10) _ _ 0 2) by reflexivity. cbn [bind].
  erewrite (disc_call 10 pair_oracle (1/10) _ _ 1 2) by reflexivity. cbn [bind].
  rewrite (disc_touch 0 1 0 2), (disc_far 0 2 0 4), (disc_touch 1 2 2 4) by lra. reflexivity.
Qed.
Lemma three_engine_world mi : engine_world ref_lapack mi three_discs [] three_disc_world.
Proof.
  apply (engine_history _ _ _ _ _ 0 10 pair_oracle disc_hd [] (1/2) (1/10) 0 2 false false three_disc_world []).
  - left; reflexivity.
  - apply pair_sane.
  - constructor; [cbn; intuition discriminate|constructor; [cbn; intuition discriminate|constructor; [cbn; tauto|constructor]]].
  - constructor.
  - exact three_init.
  - reflexivity.
Qed.
Lemma three_forces : world_apply_forces three_disc_world (w_t three_disc_world) = Ok (vzeros 9).
Proof. unfold world_apply_forces. cbn. rnum. reflexivity. Qed.
End Three.

(** the first disc runs into the other two; the pairs have restitution 1 and 1/2 *)
Definition gain_world : world R := three_disc_world 3 1 0 1 1 0.
Definition gain_rhs : vec R := vadd (mv (w_M gain_world) (w_v gain_world)) (vscale (1/2) (vzeros 9)).
Definition gain_solution : iter R :=
  {| i_x := [0; 1/2; 0; 0; -5/2; 0; 0; -2; 0]; i_s := vzeros 8; i_z := [7/2; 1; 0; 0; 0; 0; 0; 0]; i_y := [] |}.
Lemma gain_problem : exists pr, contact_problem gain_world gain_rhs = Ok pr /\ solves_lcp 9 8 0 pr gain_solution.
Proof.
  eexists. split; [reflexivity|]. constructor.
  - constructor; reflexivity.
  - lazy -[Rplus Rmult Rdiv Rinv Rminus Ropp IZR]. repeat (apply f_equal2; [field|]). reflexivity.
  - lazy -[Rplus Rmult Rdiv Rinv Rminus Ropp IZR]. repeat (apply f_equal2; [field|]). reflexivity.
  - reflexivity.
  - cbn. rnum. repeat (apply Forall_cons; [lra|]). apply Forall_nil.
  - repeat (apply Forall_cons; [lra|]). apply Forall_nil.
  - intros i. cbn [i_s gain_solution]. rewrite vget_zeros. ring.
Qed.

(** *** smooth worlds: discs without friction *)
Definition plain_disc (b : body R) : Prop := exists id x vx vy e fs, b = with_forces (disc id x vx vy e 0) fs.
Lemma plain_disc_available b : plain_disc b -> available b.
Proof. intros (id & x & vx & vy & e & fs & ->). exists (disc id x vx vy e 0), [BForces fs]. split; [left|reflexivity]. exists id, [x; 0], 1, [0; vx; vy], 1, e, 0, (1/10). reflexivity. Qed.
Lemma plain_disc_shape b : plain_disc b -> ContactSpec.tidy b /\ ContactSpec.in_range b /\ (ContactSpec.gjk_rounds b <= 10)%nat.
Proof.
  intros (id & x & vx & vy & e & fs & ->). split; [|split].
  - unfold ContactSpec.tidy, b_rad. cbn. lra.
  - unfold ContactSpec.in_range, b_rad. cbn [disc is_circle b_kind with_forces get circle_init body_init to_v3 bind]. assert (1 <= 10 ^ 9) by (cbn [pow]; lra). lra.
  - cbn. lia.
Qed.
Lemma plain_disc_mass b : plain_disc b -> (0 < b_mass b /\ 0 < b_inertia b) /\ b_fric b = 0.
Proof. intros (id & x & vx & vy & e & fs & ->). cbn. rnum. lra. Qed.
Lemma Forall_list2 {A} (P : A -> Prop) a b : P a -> P b -> Forall P [a; b].
Proof. intros. constructor; auto. Qed.

(** the collision of two frictionless discs goes on for ever *)
Section Smooth.
Variables (vx vy e vx' vy' e' : R).
Notation bs := (two_discs vx vy e 0 vx' vy' e' 0).
Notation w0 := (two_disc_world vx vy e 0 vx' vy' e' 0).
Lemma two_plain : Forall plain_disc bs.
Proof. apply Forall_list2; do 6 eexists; reflexivity. Qed.
Lemma two_smooth : smooth 10 bs [] w0.
Proof.
  pose proof two_plain as Hp. constructor.
  - constructor; [cbn; intuition discriminate|constructor; [cbn; tauto|constructor]].
  - constructor.
  - eapply Forall_impl; [|exact Hp]. apply plain_disc_available.
  - eapply Forall_impl; [|exact Hp]. apply plain_disc_shape.
  - eapply Forall_impl; [|exact Hp]. intros b Hb. now apply plain_disc_mass.
  - eapply Forall_impl; [|exact Hp]. intros b Hb. now apply plain_disc_mass.
  - constructor.
  - intros t. eexists. unfold world_apply_forces. reflexivity.
  - cbn. lra.
  - reflexivity.
  - reflexivity.
Qed.
Lemma two_runs mi fixed : (0 < mi)%nat -> exists w, exec 9 pair_oracle disc_hd (pdipm_engine ref_lapack mi) (map OStep fixed) w0 = Ok w.
Proof.
  intros Hmi. apply (smooth_steps ref_lapack mi 10 pair_oracle bs [] w0 ref_lapack_ok Hmi pair_sane two_smooth [] (1/2) (1/10) 0 2 false false (two_init _ _ _ _ _ _ _ _) 9 [] w0 fixed); [lia|reflexivity].
Qed.
Lemma two_session mi : session ref_lapack mi pair_oracle disc_hd bs [] w0.
Proof.
  apply (session_history _ _ _ _ _ _ _ 0 10 [] (1/2) (1/10) 0 2 false false w0 []).
  - left; reflexivity.
  - apply pair_sane.
  - apply (sm_ids _ _ _ _ two_smooth).
  - constructor.
  - apply (sm_available _ _ _ _ two_smooth).
  - apply two_init.
  - reflexivity.
Qed.
End Smooth.

(** the same with the first disc held in place: a ball hits a wall *)
Section Pinned.
Variables (vx' vy' e' : R).
Definition pinned_discs : list (body R) := two_discs 0 0 e' 0 vx' vy' e' 0.
Definition pin : joint R := total_init (disc 0 0 0 0 e' 0).
Definition pinned_world : world R :=
  mkWorld pinned_discs [(pin, 0%nat, None)] [] 0 (1/2) (1/10) 0 2 false false (cat3 (map b_v pinned_discs)) [touch 0 1] true 3 (world_M pinned_discs) None 1.
Lemma pinned_init : world_init pair_oracle disc_hd [] pinned_discs [pin] (1/2) (1/10) 0 2 false false = Ok pinned_world.
Proof.
  unfold world_init, pinned_discs, two_discs.
  match goal with |- context[mapM ?f [pin]] => assert (Ej : mapM f [pin] = Ok [(pin, 0%nat, None)]) by reflexivity; rewrite Ej; clear Ej end.
  assert (Es : forallb j_static [pin] = true) by reflexivity. assert (En : fold_left (fun n (j : joint R) => (n + j_num j)%nat) [pin] 0%nat = 3%nat) by reflexivity.
  rewrite Es, En. cbn [bind]. change (nofZ 0) with (IZR 0).
  unfold set_v. rewrite cat3_length, map_length. cbn [w_bodies length Nat.eqb Nat.mul Nat.add bind].
  unfold find_contacts. cbn [w_bodies with_state w_clk w_eps o_collide pair_oracle].
  change (all_pairs _) with [(0, 1)]%nat. cbn [fold_left].
  unfold disc_hd, diff_handler. cbn -[circle_circle disc world_M pin].
  change (with_v (disc 0 0 0 0 e' 0) _) with (disc 0 0 0 0 e' 0). change (with_v (disc 1 2 vx' vy' e' 0) _) with (disc 1 2 vx' vy' e' 0).
  rewrite disc_touch by lra. reflexivity.
Qed.
Lemma pinned_smooth : smooth 10 pinned_discs [pin] pinned_world.
Proof.
  assert (Hp : Forall plain_disc pinned_discs) by (apply Forall_list2; do 6 eexists; reflexivity). constructor.
  - constructor; [cbn; intuition discriminate|constructor; [cbn; tauto|constructor]].
  - constructor; [|constructor]. apply built_total. now left.
  - eapply Forall_impl; [|exact Hp]. apply plain_disc_available.
  - eapply Forall_impl; [|exact Hp]. apply plain_disc_shape.
  - eapply Forall_impl; [|exact Hp]. intros b Hb. now apply plain_disc_mass.
  - eapply Forall_impl; [|exact Hp]. intros b Hb. now apply plain_disc_mass.
  - apply (loop_free_add [] pin []); [constructor|]. left. exists 0%nat. split; [now left|intros j []].
  - intros t. eexists. unfold world_apply_forces. reflexivity.
  - cbn. lra.
  - reflexivity.
  - reflexivity.
Qed.
Lemma pinned_runs mi fixed : (0 < mi)%nat -> exists w, exec 9 pair_oracle disc_hd (pdipm_engine ref_lapack mi) (map OStep fixed) pinned_world = Ok w.
Proof.
  intros Hmi. apply (smooth_steps ref_lapack mi 10 pair_oracle pinned_discs [pin] pinned_world ref_lapack_ok Hmi pair_sane pinned_smooth [] (1/2) (1/10) 0 2 false false pinned_init 9 [] pinned_world fixed); [lia|reflexivity].
Qed.
Lemma pinned_session mi : session ref_lapack mi pair_oracle disc_hd pinned_discs [pin] pinned_world.
Proof.
  apply (session_history _ _ _ _ _ _ _ 0 10 [] (1/2) (1/10) 0 2 false false pinned_world []).
  - left; reflexivity.
  - apply pair_sane.
  - apply (sm_ids _ _ _ _ pinned_smooth).
  - apply (sm_built _ _ _ _ pinned_smooth).
  - apply (sm_available _ _ _ _ pinned_smooth).
  - apply pinned_init.
  - reflexivity.
Qed.
End Pinned.

(** *** two discs falling side by side and drifting apart *)
Definition falling_heap : fheap R := [FExt down_force 10].
Definition falling_discs : list (body R) := [with_forces (disc 0 0 0 3 0 0) [0%nat]; with_forces (disc 1 5 1 3 0 0) [0%nat]].
Definition falling_world : world R :=
  mkWorld falling_discs [] falling_heap 0 (1/2) (1/10) 0 2 false false (cat3 (map b_v falling_discs)) [] true 0 (world_M falling_discs) None 1.
Definition falling_force : vec R := [0; 0; 10; 0; 0; 10].
Lemma far_discs (b1 b2 : body R) d1 d2 : is_circle b1 = true -> is_circle b2 = true -> b_rad b1 = 1 -> b_rad b2 = 1 ->
  b_pos b1 = d1 -> b_pos b2 = d2 -> fst d1 + 3 < fst d2 -> circle_circle b1 b2 (1/10) = [].
Proof.
  intros _ _ R1 R2 P1 P2 L. unfold circle_circle. rewrite R1, R2, P1, P2.
  assert (D : 3 <= v2norm (v2sub d1 d2)).
  { unfold v2norm, v2dot, v2sub. cbn [fst snd]. rnum. rewrite <- (sqrt_Rsqr 3) by lra. apply sqrt_le_1_alt. unfold Rsqr. pose proof (Rle_0_sqr (snd d1 - snd d2)) as Q. unfold Rsqr in Q. nra. }
  rnum. now replace (Rltb (1 + 1 - v2norm (v2sub d1 d2)) (- (1 / 10))) with true by (symmetry; apply Rltb_true; lra).
Qed.
Lemma falling_init : world_init pair_oracle disc_hd falling_heap falling_discs [] (1/2) (1/10) 0 2 false false = Ok falling_world.
Proof.
  unfold world_init, falling_discs. cbn [mapM bind forallb fold_left]. change (nofZ 0) with (IZR 0).
  unfold set_v. rewrite cat3_length, map_length. cbn [w_bodies length Nat.eqb Nat.mul Nat.add bind].
  unfold find_contacts. cbn [w_bodies with_state w_clk w_eps o_collide pair_oracle].
  change (all_pairs _) with [(0, 1)]%nat. cbn [fold_left].
  unfold disc_hd, diff_handler. cbn -[circle_circle disc world_M].
  rewrite (far_discs _ _ (0, 0) (5, 0)); try reflexivity. cbn. lra.
Qed.
Lemma falling_forces t : world_apply_forces falling_world t = Ok falling_force.
Proof.
  unfold world_apply_forces, falling_world, falling_force. cbn. rnum. do 2 f_equal; [ring|]. f_equal; [ring|]. f_equal; [ring|]. f_equal; [ring|]. f_equal; [ring|]. f_equal; ring.
Qed.
Lemma moved_disc (b b' : body R) : moved b b' -> is_circle b = true -> is_circle b' = true /\ b_rad b' = b_rad b.
Proof.
  intros [ps H] Hc. destruct (CollideFacts.still_shape _ _ H) as (_ & _ & Ec & Er & _). rewrite Ec, Er.
  assert (G : forall c : body R, is_circle c = true -> is_circle (fold_left set_p ps c) = true /\ b_rad (fold_left set_p ps c) = b_rad c).
  { clear. induction ps as [|p ps IH]; intros c Hc; [auto|]. cbn [fold_left].
    assert (K : is_circle (set_p c p) = true /\ b_rad (set_p c p) = b_rad c). { unfold is_circle, b_rad, set_p in *. destruct (b_kind c) eqn:E; try discriminate. cbn. now rewrite E. }
    destruct K as [K1 K2]. destruct (IH _ K1) as [I1 I2]. rewrite I1, I2. auto. }
  now apply G.
Qed.
Lemma falling_clear m : clear_at pair_oracle disc_hd falling_world (flight_poses falling_world (1/2) falling_force m).
Proof.
  intros a Ha He Hp (k & calls & Hc1 & Hc2 & Hc3). rewrite Hc2. cbn [w_bodies falling_world falling_discs] in Ha.
  assert (Q : exists a1 a2, w_bodies a = [a1; a2] /\ moved (with_forces (disc 0 0 0 3 0 0) [0%nat]) a1 /\ moved (with_forces (disc 1 5 1 3 0 0) [0%nat]) a2).
  { destruct (w_bodies a) as [|a1 [|a2 [|]]]; inversion Ha as [|? ? ? ? ? Hl]; subst; inversion Hl as [|? ? ? ? ? Hl']; subst; inversion Hl'; subst. eauto. }
  destruct Q as (a1 & a2 & H0 & Ha1 & Ha2). clear Ha.
  rewrite H0 in Hp, Hc1. cbn [o_collide pair_oracle map length] in Hc1. change (all_pairs _) with [(0, 1)]%nat in Hc1.
  destruct calls as [|[[i j] new] [|]]; try discriminate. cbn in Hc1. injection Hc1 as -> ->. cbn [flat_map snd]. rewrite app_nil_r.
  destruct (Hc3 0 1 new)%nat as (clk & bs0 & bs1 & clk1 & Eb & Er); [now left|]. rewrite H0 in Eb.
  destruct bs0 as [|c1 [|c2 [|]]]; try discriminate. cbn [map] in Eb. assert (E1 : still c1 = still a1) by congruence. assert (E2 : still c2 = still a2) by congruence. clear Eb.
  destruct (moved_disc _ _ Ha1 eq_refl) as [C1 R1]. destruct (moved_disc _ _ Ha2 eq_refl) as [C2 R2].
  destruct (CollideFacts.still_shape _ _ E1) as (_ & P1 & K1 & S1 & _). destruct (CollideFacts.still_shape _ _ E2) as (_ & P2 & K2 & S2 & _).
  unfold flight_poses in Hp. cbn [map mapi mapi_from w_bodies falling_world falling_discs] in Hp. assert (Q1 := f_equal (fun l => nth 0 l v3zero) Hp). assert (Q2 := f_equal (fun l => nth 1 l v3zero) Hp). cbn [nth] in Q1, Q2.
  unfold disc_hd, diff_handler in Er. cbn [get_body nth_error bind] in Er. destruct (existsb _ _); [injection Er as <- _ _; reflexivity|].
  rewrite K1, K2, C1, C2 in Er. cbn [andb] in Er. rewrite He in Er. change (w_eps falling_world) with (1/10) in Er.
  rewrite (far_discs c1 c2 (b_pos a1) (b_pos a2)) in Er; try congruence.
  - cbn in Er. injection Er as <- _ _. reflexivity.
  - rewrite S1, R1. reflexivity.
  - rewrite S2, R2. reflexivity.
  - unfold b_pos. rewrite Q1, Q2. unfold flight_p, acceleration, v3_at, vget. cbn. rnum. pose proof (pos_INR m) as Pm. lra.
Qed.
Lemma falling_smooth : smooth 10 falling_discs [] falling_world.
Proof.
  assert (Hp : Forall plain_disc falling_discs) by (apply Forall_list2; do 6 eexists; reflexivity). constructor.
  - constructor; [cbn; intuition discriminate|constructor; [cbn; tauto|constructor]].
  - constructor.
  - eapply Forall_impl; [|exact Hp]. apply plain_disc_available.
  - eapply Forall_impl; [|exact Hp]. apply plain_disc_shape.
  - eapply Forall_impl; [|exact Hp]. intros b Hb. now apply plain_disc_mass.
  - eapply Forall_impl; [|exact Hp]. intros b Hb. now apply plain_disc_mass.
  - constructor.
  - intros t. eexists. apply falling_forces.
  - cbn. lra.
  - reflexivity.
  - reflexivity.
Qed.
Lemma falling_runs mi fixed : (0 < mi)%nat -> exists w, exec 9 pair_oracle disc_hd (pdipm_engine ref_lapack mi) (map OStep fixed) falling_world = Ok w.
Proof.
  intros Hmi. apply (smooth_steps ref_lapack mi 10 pair_oracle falling_discs [] falling_world ref_lapack_ok Hmi pair_sane falling_smooth falling_heap (1/2) (1/10) 0 2 false false falling_init 9 [] falling_world fixed); [lia|reflexivity].
Qed.
Lemma falling_session mi : session ref_lapack mi pair_oracle disc_hd falling_discs [] falling_world.
Proof.
  apply (session_history _ _ _ _ _ _ _ 0 10 falling_heap (1/2) (1/10) 0 2 false false falling_world []).
  - left; reflexivity.
  - apply pair_sane.
  - apply (sm_ids _ _ _ _ falling_smooth).
  - constructor.
  - apply (sm_available _ _ _ _ falling_smooth).
  - apply falling_init.
  - reflexivity.
Qed.
