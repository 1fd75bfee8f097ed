(** C82: free bodies and Newton's motion *)
From Coq Require Import List Arith ZArith Bool Reals Lra Lia.
From Verif Require Import Num Tensor Utils Bodies Forces Constraints Contacts World Lapack LapackRef Pdipm Lcp Engines Spec GeoSpec JointSpec EngineSpec StaticsSpec NewtonSpec
     RBase ResFacts LinAlg LapackSpec LuFacts EngineFacts EngineProps NewtonFacts NewtonProps FloatEx RealEx ContactEx RunTotal EngineEx.
Import ListNotations.
Open Scope R_scope.

(** After any number of steps a body that moves freely is close to where Newton's motion [P], [V] from
    the same start would bring it: the distance is at most the step length times a bound made of the
    size [A] and the rate of change [L] of its acceleration and of the simulated time. *)
Theorem C82_error :
  forall la mi o hd bs js F w w' i n b b' P V A L,
    free_run la mi o hd bs js F w w' i n -> nth_error (w_bodies w) i = Some b -> nth_error (w_bodies w') i = Some b' ->
    P (w_t w) = b_p b -> V (w_t w) = b_v b -> 0 <= A -> 0 <= L ->
    newton (fun t => acceleration b (v3_at (F t) i)) P V (w_t w) (w_t w') -> bounded_by (fun t => acceleration b (v3_at (F t) i)) A L (w_t w) (w_t w') ->
    let T := w_t w' - w_t w in let h := w_dt w in
    within (h * (L * T / 2)) (b_v b') (V (w_t w')) /\ within (h * (A * T / 2 + L * T * (T + h) / 4)) (b_p b') (P (w_t w')).
Proof. intros la mi o hd bs js F w w' i n b b' P V A L H Hb Hb'. exact (free_newton la mi o hd bs js F w w' i n b b' H Hb Hb' P V A L). Qed.
Print Assumptions C82_error.
(** So with small enough steps simulations come as close to Newton's motion as one likes. *)
Theorem C82_converges :
  forall T A L eps, 0 <= T -> 0 <= A -> 0 <= L -> 0 < eps -> exists d, 0 < d /\
    forall la mi o hd bs js F w w' i n b b' P V,
      free_run la mi o hd bs js F w w' i n -> nth_error (w_bodies w) i = Some b -> nth_error (w_bodies w') i = Some b' ->
      w_dt w <= d -> w_t w' - w_t w <= T -> P (w_t w) = b_p b -> V (w_t w) = b_v b ->
      newton (fun t => acceleration b (v3_at (F t) i)) P V (w_t w) (w_t w') -> bounded_by (fun t => acceleration b (v3_at (F t) i)) A L (w_t w) (w_t w') ->
      within eps (b_v b') (V (w_t w')) /\ within eps (b_p b') (P (w_t w')).
Proof. exact free_limit. Qed.
Print Assumptions C82_converges.
(** Under a constant force the velocity is exact, and the body is exactly half a step's worth of velocity
    gain times the time too far: the bound above is attained.  The energy falls by an exact amount. *)
Theorem C82_constant :
  forall la mi o hd bs js F w w' i n b b' f,
    free_run la mi o hd bs js F w w' i n -> nth_error (w_bodies w) i = Some b -> nth_error (w_bodies w') i = Some b' ->
    (forall t, v3_at (F t) i = f) ->
    let T := w_t w' - w_t w in let h := w_dt w in let a := acceleration b f in
    b_v b' = v3add (b_v b) (v3scale T a) /\
    b_p b' = v3add (parabola (b_p b) (b_v b) a T) (v3scale (T * h / 2) a) /\
    energy b f (b_p b') (b_v b') = energy b f (b_p b) (b_v b) - T * h / 2 * (b_inertia b * (fst a * fst a) + b_mass b * (fst (snd a) * fst (snd a) + snd (snd a) * snd (snd a))).
Proof. intros la mi o hd bs js F w w' i n b b' f H Hb Hb'. exact (free_constant la mi o hd bs js F w w' i n b b' H Hb Hb' f). Qed.
Print Assumptions C82_constant.
(** The parabola is Newton's motion. *)
Theorem C82_parabola : forall p v a t1, newton (fun _ => a) (parabola p v a) (fun t => v3add v (v3scale t a)) 0 t1 /\ parabola p v a 0 = p.
Proof. intros p v a t1. split; [apply parabola_newton|apply parabola_start]. Qed.
Print Assumptions C82_parabola.
(** Finding: a body in free fall does not keep its energy.  A disc of mass 1 that falls for ten steps of
    1/2 s under gravity 10 loses 125. *)
Theorem C82_energy_refuted : exists la mi o hd bs js F w w' i b b' f,
  free_run la mi o hd bs js F w w' i 10 /\ nth_error (w_bodies w) i = Some b /\ nth_error (w_bodies w') i = Some b' /\ b_mass b = 1 /\
  (forall t, v3_at (F t) i = f) /\ f = (0, (0, 10)) /\ energy b f (b_p b') (b_v b') = energy b f (b_p b) (b_v b) - 125.
Proof. exact falling_loses. Qed.
Print Assumptions C82_energy_refuted.

(** Hypotheses met, with any number of steps: the second of two discs that fall side by side *)
Example C82_case : forall n, exists w' b',
  free_run ref_lapack 10 pair_oracle disc_hd falling_discs [] (fun _ => falling_force) falling_world w' 1 n /\
  nth_error (w_bodies w') 1 = Some b' /\
  let b := with_forces (disc 1 5 1 3 0 0) [0%nat] in let a := acceleration b (v3_at falling_force 1) in
  nth_error (w_bodies falling_world) 1 = Some b /\ w_t falling_world = 0 /\
  newton (fun _ => a) (parabola (b_p b) (b_v b) a) (fun t => v3add (b_v b) (v3scale t a)) 0 (w_t w') /\ bounded_by (fun _ => a) 10 0 0 (w_t w') /\
  ~ bounded_by (fun _ => a) 9 0 0 (w_t w').
Proof. exact falling_case. Qed.
