(** Runs in which a body moves freely (proofs for C82) *)
From Coq Require Import List Arith ZArith Bool Reals Lra Lia.
From Verif Require Import Num Tensor Utils Bodies Forces Constraints Contacts World Lapack LapackRef Pdipm Lcp Engines Spec GeoSpec JointSpec EngineSpec StaticsSpec NewtonSpec
     RBase ResFacts LinAlg LapackSpec LuFacts LayoutFacts EngineFacts EngineProps StaticsFacts StaticsProps EnergyRun NewtonFacts FloatEx RealEx ContactEx RunTotal EngineEx.
Import ListNotations.
Open Scope R_scope.

Section Free.
Variables (la : lapack R) (mi : nat) (o : oracle R) (hd : handler R) (bs : list (body R)) (js : list (joint R)) (F : R -> vec R) (w w' : world R) (i n : nat) (b b' : body R).
Hypothesis H : free_run la mi o hd bs js F w w' i n.
Hypothesis Hb : nth_error (w_bodies w) i = Some b.
Hypothesis Hb' : nth_error (w_bodies w') i = Some b'.
Lemma free_time : w_t w' = w_t w + INR n * w_dt w.
Proof. destruct H as [rest fuel fixed HL HW Hm Hdt HF HS HI HC <- HX Hi]. exact (proj1 (run_coasts la mi o hd bs js w rest F fuel fixed w' i b b' HL HW Hm Hdt HF HS HI HC HX Hi Hb Hb')). Qed.
Theorem free_newton P V A L : P (w_t w) = b_p b -> V (w_t w) = b_v b -> 0 <= A -> 0 <= L ->
  newton (fun t => acceleration b (v3_at (F t) i)) P V (w_t w) (w_t w') -> bounded_by (fun t => acceleration b (v3_at (F t) i)) A L (w_t w) (w_t w') ->
  let T := w_t w' - w_t w in let h := w_dt w in
  within (h * (L * T / 2)) (b_v b') (V (w_t w')) /\ within (h * (A * T / 2 + L * T * (T + h) / 4)) (b_p b') (P (w_t w')).
Proof. destruct H as [rest fuel fixed HL HW Hm Hdt HF HS HI HC <- HX Hi]. exact (run_newton la mi o hd bs js w rest F fuel fixed w' i b b' HL HW Hm Hdt HF HS HI HC HX Hi Hb Hb' P V A L). Qed.
Theorem free_constant f : (forall t, v3_at (F t) i = f) -> let T := w_t w' - w_t w in let h := w_dt w in let a := acceleration b f in
  b_v b' = v3add (b_v b) (v3scale T a) /\ b_p b' = v3add (parabola (b_p b) (b_v b) a T) (v3scale (T * h / 2) a) /\
  energy b f (b_p b') (b_v b') = energy b f (b_p b) (b_v b) - T * h / 2 * (b_inertia b * (fst a * fst a) + b_mass b * (fst (snd a) * fst (snd a) + snd (snd a) * snd (snd a))).
Proof. destruct H as [rest fuel fixed HL HW Hm Hdt HF HS HI HC <- HX Hi]. exact (run_constant la mi o hd bs js w rest F fuel fixed w' i b b' HL HW Hm Hdt HF HS HI HC HX Hi Hb Hb' f). Qed.
End Free.
Theorem free_limit T A L eps : 0 <= T -> 0 <= A -> 0 <= L -> 0 < eps -> exists d, 0 < d /\
  forall la mi o hd bs js F w w' i n b b' P V, free_run la mi o hd bs js F w w' i n -> nth_error (w_bodies w) i = Some b -> nth_error (w_bodies w') i = Some b' ->
    w_dt w <= d -> w_t w' - w_t w <= T -> P (w_t w) = b_p b -> V (w_t w) = b_v b ->
    newton (fun t => acceleration b (v3_at (F t) i)) P V (w_t w) (w_t w') -> bounded_by (fun t => acceleration b (v3_at (F t) i)) A L (w_t w) (w_t w') ->
    within eps (b_v b') (V (w_t w')) /\ within eps (b_p b') (P (w_t w')).
Proof.
  intros HT HA HL He. set (K := 1 + A * T / 2 + L * T / 2 + L * T * (T + 1) / 4). assert (H1 : 0 <= A * T) by (apply Rmult_le_pos; lra). assert (H2 : 0 <= L * T) by (apply Rmult_le_pos; lra). assert (H3 : 0 <= L * T * (T + 1)) by (apply Rmult_le_pos; lra). assert (HK : 1 <= K) by (unfold K; lra).
  exists (Rmin 1 (eps / K)). assert (Q : 0 < eps / K) by (apply Rdiv_lt_0_compat; lra). split; [apply Rmin_glb_lt; lra|].
  intros la mi o hd bs js F w w' i n b b' P V H Hb Hb' Hd Ht EP EV HN HB. pose proof (Rmin_l 1 (eps / K)) as D1. pose proof (Rmin_r 1 (eps / K)) as D2.
  destruct (free_newton la mi o hd bs js F w w' i n b b' H Hb Hb' P V A L EP EV HA HL HN HB) as [Q1 Q2]. cbv zeta in *. set (S := w_t w' - w_t w) in *. set (h := w_dt w) in *.
  assert (Hh : 0 < h) by (destruct H; assumption).
  assert (S0 : 0 <= S) by (unfold S; rewrite (free_time la mi o hd bs js F w w' i n b b' H Hb Hb'); pose proof (Rmult_le_pos (INR n) h (pos_INR n) ltac:(lra)); fold h; lra).
  assert (E : h * K <= eps) by (apply Rle_trans with (eps / K * K); [apply Rmult_le_compat_r; lra|right; field; lra]).
  assert (G1 : L * S <= L * T) by (apply Rmult_le_compat_l; lra). assert (G2 : A * S <= A * T) by (apply Rmult_le_compat_l; lra).
  assert (G3 : L * S * (S + h) <= L * T * (T + 1)) by (apply Rmult_le_compat; try lra; apply Rmult_le_pos; lra).
  split; intros c; [specialize (Q1 c)|specialize (Q2 c)]; (eapply Rle_trans; [eassumption|]); (eapply Rle_trans; [|exact E]); apply Rmult_le_compat_l; unfold K; lra.
Qed.
(** two discs fall side by side *)
Lemma falling_free n : exists w', free_run ref_lapack 10 pair_oracle disc_hd falling_discs [] (fun _ => falling_force) falling_world w' 1 n.
Proof.
  destruct (falling_runs 10 (repeat false n) ltac:(lia)) as [w' Hx]. exists w'. apply (fr_run _ _ _ _ _ _ _ _ _ _ _ (fun _ => false) 9 (repeat false n)); auto.
  - exact ref_lapack_ok.
  - apply falling_session.
  - repeat (apply Forall_cons; [cbn; rnum; lra|]). apply Forall_nil.
  - cbn. lra.
  - apply falling_forces.
  - split; [intros j i1 i2 []|discriminate].
  - intros m _ x Lx _ Hx0. pose proof (Hx0 0%nat eq_refl) as X0. pose proof (Hx0 1%nat eq_refl) as X1. destruct x as [|x1 [|x2 [|x3 [|x4 [|x5 [|x6 [|? ?]]]]]]]; try discriminate Lx.
    unfold v3_at, vget in X0, X1. cbn in X0, X1. injection X0 as -> -> ->. injection X1 as -> -> ->. unfold dot, falling_force. cbn. rnum. ring.
  - intros m _. replace (map fst (coasting falling_world (fun _ => false) (fun _ => falling_force) m)) with (flight_poses falling_world (1/2) falling_force m); [apply falling_clear|].
    apply nth_error_ext. intros i. unfold flight_poses, coasting. rewrite nth_error_map, !mapi_nth. destruct (nth_error (w_bodies falling_world) i) as [b|]; [|reflexivity]. cbn [option_map]. rewrite coast_constant. cbn [fst]. apply (f_equal Some). unfold flight_p. change (w_dt falling_world) with (1/2). rnum.
    replace (INR m * (INR m + 1) / 2 * (1 / 2) * (1 / 2)) with (INR m * (INR m + 1) / 2 * (1 / 2 * (1 / 2))) by field. reflexivity.
  - apply repeat_length.
Qed.
Lemma falling_has n w' : free_run ref_lapack 10 pair_oracle disc_hd falling_discs [] (fun _ => falling_force) falling_world w' 1 n -> exists b', nth_error (w_bodies w') 1 = Some b'.
Proof.
  intros H. destruct H as [rest fuel fixed HL HW Hm Hdt HF HS HI HC Hn HX Hi]. pose proof (session_later _ _ _ _ _ _ _ fuel _ _ HW HX) as HW'.
  destruct (session_facts _ _ _ _ _ _ _ HW') as (_ & _ & _ & _ & J0 & Sd & _). destruct (nth_error (w_bodies w') 1) as [b'|] eqn:E; [eauto|]. apply nth_error_None in E. rewrite (so_len _ _ _ _ Sd) in E. cbn in E. lia.
Qed.
Lemma falling_loses : exists la mi o hd bs js F w w' i b b' f,
  free_run la mi o hd bs js F w w' i 10 /\ nth_error (w_bodies w) i = Some b /\ nth_error (w_bodies w') i = Some b' /\ b_mass b = 1 /\
  (forall t, v3_at (F t) i = f) /\ f = (0, (0, 10)) /\ energy b f (b_p b') (b_v b') = energy b f (b_p b) (b_v b) - 125.
Proof.
  destruct (falling_free 10) as [w' H]. destruct (falling_has 10 w' H) as [b' Hb'].
  exists ref_lapack, 10%nat, pair_oracle, disc_hd, falling_discs, [], (fun _ => falling_force), falling_world, w', 1%nat, (with_forces (disc 1 5 1 3 0 0) [0%nat]), b', (0, (0, 10)).
  split; [exact H|]. split; [reflexivity|]. split; [exact Hb'|]. split; [reflexivity|]. split; [reflexivity|]. split; [reflexivity|].
  destruct (free_constant _ _ _ _ _ _ _ _ _ _ _ _ _ H (eq_refl : nth_error (w_bodies falling_world) 1 = Some (with_forces (disc 1 5 1 3 0 0) [0%nat])) Hb' (0, (0, 10)) (fun _ => eq_refl)) as (_ & _ & E).
  rewrite E. rewrite (free_time _ _ _ _ _ _ _ _ _ _ _ _ _ H (eq_refl : nth_error (w_bodies falling_world) 1 = Some (with_forces (disc 1 5 1 3 0 0) [0%nat])) Hb'). change (w_dt falling_world) with (1/2). change (w_t falling_world) with 0. 
  apply (f_equal (fun x => energy (with_forces (disc 1 5 1 3 0 0) [0%nat]) (0, (0, 10)) (b_p (with_forces (disc 1 5 1 3 0 0) [0%nat])) (b_v (with_forces (disc 1 5 1 3 0 0) [0%nat])) - x)).
  unfold acceleration, v2scale. cbn. rnum. field.
Qed.
Lemma falling_case : forall n, exists w' b',
  free_run ref_lapack 10 pair_oracle disc_hd falling_discs [] (fun _ => falling_force) falling_world w' 1 n /\
  nth_error (w_bodies w') 1 = Some b' /\
  let b := with_forces (disc 1 5 1 3 0 0) [0%nat] in let a := acceleration b (v3_at falling_force 1) in
  nth_error (w_bodies falling_world) 1 = Some b /\ w_t falling_world = 0 /\
  newton (fun _ => a) (parabola (b_p b) (b_v b) a) (fun t => v3add (b_v b) (v3scale t a)) 0 (w_t w') /\ bounded_by (fun _ => a) 10 0 0 (w_t w') /\
  ~ bounded_by (fun _ => a) 9 0 0 (w_t w').
Proof.
  intros n. destruct (falling_free n) as [w' H]. destruct (falling_has n w' H) as [b' Hb']. exists w', b'. split; [exact H|]. split; [exact Hb'|]. intros b a. split; [reflexivity|]. split; [reflexivity|]. split; [apply parabola_newton|].
  assert (Ea : a = (0, (0, 10))) by (unfold a, acceleration, v2scale, v3_at, vget; cbn; rnum; apply f_equal2; [field|apply f_equal2; field]). rewrite Ea. split; [split|].
  - intros t c _. destruct c; cbn; rewrite ?Rabs_R0, ?Rabs_pos_eq; lra.
  - intros s t c _ _. rewrite Rminus_diag_eq, Rabs_R0 by reflexivity. lra.
  - intros [Q _]. assert (T0 : 0 <= w_t w') by (rewrite (free_time _ _ _ _ _ _ _ _ _ _ _ _ _ H (eq_refl : nth_error (w_bodies falling_world) 1 = Some b) Hb'); change (w_dt falling_world) with (1/2); change (w_t falling_world) with 0; pose proof (pos_INR n); lra).
    specialize (Q 0 Along_y ltac:(lra)). cbn in Q. rewrite Rabs_pos_eq in Q; lra.
Qed.
