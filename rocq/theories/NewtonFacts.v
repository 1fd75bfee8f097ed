(** Simulated and true free motion (proofs for C82) *)
From Coq Require Import List Arith ZArith Bool Reals Lra Lia.
From Verif Require Import Num Tensor Utils Bodies Forces Constraints Contacts World Lapack Pdipm Lcp Engines Spec GeoSpec JointSpec EngineSpec StaticsSpec NewtonSpec
     RBase ResFacts LinAlg LapackSpec SysFacts EngineFacts EngineProps StaticsFacts StaticsProps BodyReach LayoutFacts.
Import ListNotations.
Open Scope R_scope.

Lemma coord_add c p q : coord c (v3add p q) = coord c p + coord c q.
Proof. destruct c; reflexivity. Qed.
Lemma coord_scale c a q : coord c (v3scale a q) = a * coord c q.
Proof. destruct c; reflexivity. Qed.

(** f(h) - f(0) <= C h^2 / 2 if f' (s) <= C s *)
Lemma below_parabola f f' C h : 0 <= h -> (forall s, 0 <= s <= h -> derivable_pt_lim f s (f' s)) -> (forall s, 0 <= s <= h -> f' s <= C * s) -> f h - f 0 <= C * h * h / 2.
Proof.
  intros [Hh|<-] Hd Hb; [|lra]. set (g := fun s => f s - C / 2 * (s * s)). set (g' := fun s => f' s - C / 2 * (1 * s + s * 1)).
  assert (D : forall s, 0 <= s <= h -> derivable_pt_lim g s (g' s)).
  { intros s Hs. unfold g, g'. apply (derivable_pt_lim_minus f (fun s => C / 2 * (s * s)) s (f' s) (C / 2 * (1 * s + s * 1))); [now apply Hd|]. apply (derivable_pt_lim_scal (fun s => s * s) (C / 2) s (1 * s + s * 1)).
    apply (derivable_pt_lim_mult id id s 1 1); apply derivable_pt_lim_id. }
  destruct (MVT_cor2 g g' 0 h Hh D) as (c & E & Hc). assert (Q : g' c <= 0) by (unfold g'; specialize (Hb c ltac:(lra)); lra).
  assert (g h - g 0 <= 0). { rewrite E. pose proof (Rmult_le_compat_r (h - 0) _ _ ltac:(lra) Q). lra. }
  unfold g in H. lra.
Qed.
Lemma near_parabola f f' C h : 0 <= h -> (forall s, 0 <= s <= h -> derivable_pt_lim f s (f' s)) -> (forall s, 0 <= s <= h -> Rabs (f' s) <= C * s) -> Rabs (f h - f 0) <= C * h * h / 2.
Proof.
  intros Hh Hd Hb. apply Rabs_le. split.
  - assert (Q : (fun s => - f s) h - (fun s => - f s) 0 <= C * h * h / 2).
    { apply (below_parabola (fun s => - f s) (fun s => - f' s)); [exact Hh| |].
      - intros s Hs. apply (derivable_pt_lim_opp f s (f' s)). now apply Hd.
      - intros s Hs. specialize (Hb s Hs). pose proof (Rle_abs (- f' s)) as K. rewrite Rabs_Ropp in K. lra. }
    cbv beta in Q. lra.
  - apply (below_parabola f f'); auto. intros s Hs. specialize (Hb s Hs). pose proof (Rle_abs (f' s)). lra.
Qed.
Lemma shift_lim f l t s : derivable_pt_lim f (t + s) l -> derivable_pt_lim (fun x => f (t + x)) s l.
Proof.
  intros H. replace l with (l * (0 + 1)) by ring. apply (derivable_pt_lim_comp (fun x => t + x) f); [|exact H].
  apply (derivable_pt_lim_plus (fct_cte t) id s 0 1); [apply derivable_pt_lim_const|apply derivable_pt_lim_id].
Qed.
Lemma back_lim f l t s : derivable_pt_lim f (t - s) l -> derivable_pt_lim (fun x => f (t - x)) s (- l).
Proof.
  intros H. replace (- l) with (l * (0 - 1)) by ring. apply (derivable_pt_lim_comp (fun x => t - x) f); [|exact H].
  apply (derivable_pt_lim_minus (fct_cte t) id s 0 1); [apply derivable_pt_lim_const|apply derivable_pt_lim_id].
Qed.
Lemma linear_lim a s : derivable_pt_lim (fun x => x * a) s a.
Proof.
  assert (Q : derivable_pt_lim (fun x => x * a) s (1 * a + s * 0)) by (apply (derivable_pt_lim_mult id (fct_cte a) s 1 0); [apply derivable_pt_lim_id|apply derivable_pt_lim_const]).
  rewrite Rmult_1_l, Rmult_0_r, Rplus_0_r in Q. exact Q.
Qed.

Section Motion.
Variables (acc P V : R -> v3 R) (A L t0 t1 : R).
Hypothesis HN : newton acc P V t0 t1.
Hypothesis HB : bounded_by acc A L t0 t1.

Lemma velocity_moves c s t : t0 <= s -> s <= t -> t <= t1 -> Rabs (coord c (V t) - coord c (V s)) <= A * (t - s).
Proof.
  intros H0 Hst H1. destruct Hst as [Hst|<-]; [|rewrite !Rminus_diag_eq, Rabs_R0 by reflexivity; lra].
  destruct (MVT_cor2 (fun x => coord c (V x)) (fun x => coord c (acc x)) s t Hst) as (x & E & Hx); [intros x Hx; apply HN; lra|].
  cbv beta in E. rewrite E, Rabs_mult, (Rabs_pos_eq (t - s)) by lra. apply Rmult_le_compat_r; [lra|]. apply HB. lra.
Qed.
(** what one step misses *)
Lemma velocity_step c t h : 0 <= h -> t0 <= t -> t + h <= t1 -> Rabs (coord c (V (t + h)) - coord c (V t) - h * coord c (acc t)) <= L * h * h / 2.
Proof.
  intros Hh H0 H1. set (a := coord c (acc t)).
  pose proof (near_parabola (fun s => coord c (V (t + s)) - s * a) (fun s => coord c (acc (t + s)) - a) L h Hh) as Q. cbv beta in Q. rewrite Rplus_0_r, Rmult_0_l, Rminus_0_r in Q.
  replace (coord c (V (t + h)) - coord c (V t) - h * a) with (coord c (V (t + h)) - h * a - coord c (V t)) by ring. apply Q.
  - intros s Hs. apply (derivable_pt_lim_minus (fun s => coord c (V (t + s))) (fun s => s * a)); [|apply linear_lim]. apply (shift_lim (fun x => coord c (V x))). apply HN. lra.
  - intros s Hs. unfold a. eapply Rle_trans; [apply (proj2 HB (t + s) t c); lra|]. replace (t + s - t) with s by ring. rewrite Rabs_pos_eq by lra. lra.
Qed.
Lemma position_step c t h : 0 <= h -> t0 <= t -> t + h <= t1 -> Rabs (coord c (P (t + h)) - coord c (P t) - h * coord c (V (t + h))) <= A * h * h / 2.
Proof.
  intros Hh H0 H1. set (u := coord c (V (t + h))).
  pose proof (near_parabola (fun s => coord c (P (t + h - s)) + s * u) (fun s => - coord c (V (t + h - s)) + u) A h Hh) as Q. cbv beta in Q. rewrite Rmult_0_l, Rplus_0_r, Rminus_0_r in Q.
  replace (t + h - h) with t in Q by ring. rewrite <- Rabs_Ropp. replace (- (coord c (P (t + h)) - coord c (P t) - h * u)) with (coord c (P t) + h * u - coord c (P (t + h))) by ring. apply Q.
  - intros s Hs. apply (derivable_pt_lim_plus (fun s => coord c (P (t + h - s))) (fun s => s * u)); [|apply linear_lim]. apply (back_lim (fun x => coord c (P x))). apply HN. lra.
  - intros s Hs. unfold u. replace (- coord c (V (t + h - s)) + coord c (V (t + h))) with (coord c (V (t + h)) - coord c (V (t + h - s))) by ring. eapply Rle_trans; [apply velocity_moves; lra|]. lra.
Qed.
(** the errors add up *)
Lemma coast_error h : 0 <= h -> forall n t p v ev ep, t0 <= t -> t + INR n * h <= t1 -> 0 <= A -> 0 <= L ->
  within ev v (V t) -> within ep p (P t) ->
  within (ev + INR n * (L * h * h / 2)) (snd (coast h t acc p v n)) (V (t + INR n * h)) /\
  within (ep + INR n * h * ev + INR n * (INR n + 1) * h * (L * h * h) / 4 + INR n * (A * h * h / 2)) (fst (coast h t acc p v n)) (P (t + INR n * h)).
Proof.
  intros Hh. induction n as [|n IH]; intros t p v ev ep H0 H1 HA HL Ev Ep.
  - cbn [coast fst snd INR]. rewrite !Rmult_0_l, !Rplus_0_r. split; intros c; [apply Ev|]. specialize (Ep c). lra.
  - cbn [coast]. rewrite S_INR in *. pose proof (pos_INR n) as N0. assert (N1 : 0 <= INR n * h) by (apply Rmult_le_pos; lra). assert (H2 : t + h <= t1) by lra.
    set (v' := v3add v (v3scale h (acc t))). set (p' := v3add p (v3scale h v')).
    assert (Ev' : within (ev + L * h * h / 2) v' (V (t + h))).
    { intros c. unfold v'. rewrite coord_add, coord_scale. replace (coord c v + h * coord c (acc t) - coord c (V (t + h))) with ((coord c v - coord c (V t)) - (coord c (V (t + h)) - coord c (V t) - h * coord c (acc t))) by ring.
      eapply Rle_trans; [apply Rabs_triang|]. rewrite Rabs_Ropp. apply Rplus_le_compat; [apply Ev|apply velocity_step; lra]. }
    assert (Ep' : within (ep + h * (ev + L * h * h / 2) + A * h * h / 2) p' (P (t + h))).
    { intros c. unfold p'. rewrite coord_add, coord_scale. replace (coord c p + h * coord c v' - coord c (P (t + h))) with ((coord c p - coord c (P t)) + h * (coord c v' - coord c (V (t + h))) - (coord c (P (t + h)) - coord c (P t) - h * coord c (V (t + h)))) by ring.
      eapply Rle_trans; [apply Rabs_triang|]. rewrite Rabs_Ropp. apply Rplus_le_compat; [|apply position_step; lra]. eapply Rle_trans; [apply Rabs_triang|]. apply Rplus_le_compat; [apply Ep|].
      rewrite Rabs_mult, (Rabs_pos_eq h) by lra. apply Rmult_le_compat_l; [lra|apply Ev']. }
    destruct (IH (t + h) p' v' _ _ ltac:(lra) ltac:(lra) HA HL Ev' Ep') as [I1 I2]. replace (t + (INR n + 1) * h) with (t + h + INR n * h) by ring. split.
    + intros c. specialize (I1 c). eapply Rle_trans; [exact I1|]. right. field.
    + intros c. specialize (I2 c). eapply Rle_trans; [exact I2|]. right. field.
Qed.
End Motion.
(** starting exactly *)
Theorem coast_converges acc P V A L t0 h n : 0 <= h -> 0 <= A -> 0 <= L -> let T := INR n * h in
  newton acc P V t0 (t0 + T) -> bounded_by acc A L t0 (t0 + T) ->
  within (L * T * h / 2) (snd (coast h t0 acc (P t0) (V t0) n)) (V (t0 + T)) /\
  within (h * (A * T / 2 + L * T * (T + h) / 4)) (fst (coast h t0 acc (P t0) (V t0) n)) (P (t0 + T)).
Proof.
  intros Hh HA HL T HN HB. assert (N0 : 0 <= T) by (apply Rmult_le_pos; [apply pos_INR|exact Hh]).
  destruct (coast_error acc P V A L t0 (t0 + T) HN HB h Hh n t0 (P t0) (V t0) 0 0) as [E1 E2]; try lra; try (unfold T; lra).
  - intros c. rewrite Rminus_diag_eq, Rabs_R0 by reflexivity. lra.
  - intros c. rewrite Rminus_diag_eq, Rabs_R0 by reflexivity. lra.
  - unfold T in *. split; intros c; [specialize (E1 c)|specialize (E2 c)]; eapply Rle_trans; [exact E1|right; field|exact E2|right; field].
Qed.
(** *** constant force *)
Lemma coast_constant h a n : forall t p v, coast h t (fun _ => a) p v n =
  (v3add (v3add p (v3scale (INR n * h) v)) (v3scale (INR n * (INR n + 1) / 2 * h * h) a), v3add v (v3scale (INR n * h) a)).
Proof.
  induction n as [|n IH]; intros t [p1 [p2 p3]] [v1 [v2 v3]]; destruct a as [a1 [a2 a3]].
  - cbn [coast INR]. unfold v3add, v3scale, v2add, v2scale. cbn [fst snd]. rnum. apply f_equal2; (apply f_equal2; [field|apply f_equal2; field]).
  - cbn [coast]. rewrite IH, S_INR. unfold v3add, v3scale, v2add, v2scale. cbn [fst snd]. rnum. apply f_equal2; (apply f_equal2; [field|apply f_equal2; field]).
Qed.
Lemma parabola_newton p v a t1 : newton (fun _ => a) (parabola p v a) (fun t => v3add v (v3scale t a)) 0 t1.
Proof.
  intros t c _. unfold parabola. split.
  - assert (Q : derivable_pt_lim (fun s => coord c p + s * coord c v + (s * s) * (coord c a / 2)) t (0 + coord c v + ((1 * t + t * 1) * (coord c a / 2) + (t * t) * 0))).
    { apply (derivable_pt_lim_plus (fun s => coord c p + s * coord c v) (fun s => (s * s) * (coord c a / 2))).
      - apply (derivable_pt_lim_plus (fct_cte (coord c p)) (fun s => s * coord c v)); [apply derivable_pt_lim_const|apply linear_lim].
      - apply (derivable_pt_lim_mult (fun s => s * s) (fct_cte (coord c a / 2))); [apply (derivable_pt_lim_mult id id); apply derivable_pt_lim_id|apply derivable_pt_lim_const]. }
    replace (coord c (v3add v (v3scale t a))) with (0 + coord c v + ((1 * t + t * 1) * (coord c a / 2) + t * t * 0)) by (rewrite coord_add, coord_scale; field).
    eapply derivable_pt_lim_ext; [|exact Q]. intros s. rewrite !coord_add, !coord_scale. field.
  - assert (Q : derivable_pt_lim (fun s => coord c v + s * coord c a) t (0 + coord c a)).
    { apply (derivable_pt_lim_plus (fct_cte (coord c v)) (fun s => s * coord c a)); [apply derivable_pt_lim_const|apply linear_lim]. }
    rewrite Rplus_0_l in Q. eapply derivable_pt_lim_ext; [|exact Q]. intros s. rewrite coord_add, coord_scale. reflexivity.
Qed.

Section Run.
Variables (la : lapack R) (mi : nat) (o : oracle R) (hd : handler R) (bs : list (body R)) (js : list (joint R)) (w : world R) (rest : nat -> bool) (F : R -> vec R) (fuel : nat) (fixed : list bool) (w' : world R) (i : nat) (b b' : body R).
Hypothesis HL : lapack_ok la.
Hypothesis HW : session la mi o hd bs js w.
Hypothesis Hm : Forall (fun b : body R => 0 < b_mass b /\ 0 < b_inertia b) bs.
Hypothesis Hdt : 0 < w_dt w.
Hypothesis HF : forall t, world_apply_forces w t = Ok (F t).
Hypothesis HS : jointed w rest F.
Hypothesis HI : forall m, (m < length fixed)%nat -> in_balance w rest (F (w_t w + INR m * w_dt w)).
Hypothesis HC : forall m, (m <= length fixed)%nat -> clear_at o hd w (map fst (coasting w rest F m)).
Hypothesis HX : exec fuel o hd (pdipm_engine la mi) (map (@OStep R) fixed) w = Ok w'.
Hypothesis Hi : rest i = false.
Hypothesis Hb : nth_error (w_bodies w) i = Some b.
Hypothesis Hb' : nth_error (w_bodies w') i = Some b'.
Notation h := (w_dt w).
Notation T := (INR (length fixed) * h).
Notation acc := (fun t => acceleration b (v3_at (F t) i)).

Lemma run_coasts : w_t w' = w_t w + T /\ (b_p b', b_v b') = coast h (w_t w) acc (b_p b) (b_v b) (length fixed).
Proof.
  destruct (session_coast la mi o hd bs js w rest F fuel fixed w' HL HW Hm Hdt HF HS HI HC HX) as (E1 & _ & E3). split; [exact E1|].
  apply (f_equal (fun l => nth_error l i)) in E3. unfold coasting in E3. rewrite nth_error_map, mapi_nth, Hb, Hb' in E3. cbn [option_map] in E3. rewrite Hi in E3. injection E3 as E3. exact E3.
Qed.
Theorem run_newton P V A L : P (w_t w) = b_p b -> V (w_t w) = b_v b -> 0 <= A -> 0 <= L -> newton acc P V (w_t w) (w_t w') -> bounded_by acc A L (w_t w) (w_t w') ->
  let S := w_t w' - w_t w in
  within (h * (L * S / 2)) (b_v b') (V (w_t w')) /\ within (h * (A * S / 2 + L * S * (S + h) / 4)) (b_p b') (P (w_t w')).
Proof.
  destruct run_coasts as [Et Ec]. rewrite Et. intros EP EV HA HLp HN HB. replace (w_t w + T - w_t w) with T by ring.
  destruct (coast_converges acc P V A L (w_t w) h (length fixed) ltac:(lra) HA HLp HN HB) as [Q1 Q2]. rewrite EP, EV, <- Ec in Q1, Q2. cbn [fst snd] in Q1, Q2. split; [|exact Q2]. intros c. specialize (Q1 c). lra.
Qed.
Theorem run_constant f : (forall t, v3_at (F t) i = f) -> let S := w_t w' - w_t w in let a := acceleration b f in
  b_v b' = v3add (b_v b) (v3scale S a) /\ b_p b' = v3add (parabola (b_p b) (b_v b) a S) (v3scale (S * h / 2) a) /\
  energy b f (b_p b') (b_v b') = energy b f (b_p b) (b_v b) - S * h / 2 * (b_inertia b * (fst a * fst a) + b_mass b * (fst (snd a) * fst (snd a) + snd (snd a) * snd (snd a))).
Proof.
  intros Hf S a. destruct run_coasts as [Et Ec]. assert (ES : S = T) by (unfold S; rewrite Et; ring).
  assert (Ex : forall n t p v, coast h t acc p v n = coast h t (fun _ => a) p v n) by (induction n as [|n IH]; intros t p v; [reflexivity|]; cbn [coast]; rewrite Hf; apply IH).
  rewrite Ex, coast_constant in Ec. injection Ec as E1 E2. 
  assert (EV : b_v b' = v3add (b_v b) (v3scale S a)) by (rewrite ES; exact E2).
  assert (EP : b_p b' = v3add (parabola (b_p b) (b_v b) a S) (v3scale (S * h / 2) a)).
  { rewrite E1, ES. unfold parabola. destruct a as [a1 [a2 a3]], (b_p b) as [p1 [p2 p3]], (b_v b) as [v1 [v2 v3]]. unfold v3add, v3scale, v2add, v2scale. cbn [fst snd]. rnum. apply f_equal2; [field|apply f_equal2; field]. }
  split; [exact EV|]. split; [exact EP|]. rewrite EV, EP.
  assert (Mb : b_mass b <> 0 /\ b_inertia b <> 0).
  { destruct (session_facts _ _ _ _ _ _ _ HW) as (_ & _ & _ & _ & J0 & Hs & _). pose proof (so_attrs _ _ _ _ Hs) as Q. rewrite Forall_forall in Hm.
    destruct (BodyReach.Forall2_In_r _ _ _ _ Q (nth_error_In _ _ Hb)) as (b0 & Hin & A). specialize (Hm b0 Hin). unfold HistFacts.same_attrs in A. destruct A as (_ & -> & -> & _). lra. }
  destruct Mb as [M1 M2]. assert (F1 : fst f = b_inertia b * fst a) by (unfold a, acceleration; cbn [fst snd]; field; auto). assert (F2 : fst (snd f) = b_mass b * fst (snd a)) by (unfold a, acceleration, v2scale; cbn [fst snd]; rnum; field; auto).
  assert (F3 : snd (snd f) = b_mass b * snd (snd a)) by (unfold a, acceleration, v2scale; cbn [fst snd]; rnum; field; auto).
  unfold energy, parabola. rewrite F1, F2, F3. clear. destruct a as [a1 [a2 a3]], (b_p b) as [p1 [p2 p3]], (b_v b) as [v1 [v2 v3]]. unfold v3add, v3scale, v2add, v2scale. cbn [fst snd]. rnum. field.
Qed.
End Run.
Lemma parabola_start p v a : parabola p v a 0 = p.
Proof. destruct p as [p1 [p2 p3]], v as [v1 [v2 v3]], a as [a1 [a2 a3]]. unfold parabola, v3add, v3scale, v2add, v2scale. cbn [fst snd]. rnum. apply f_equal2; [field|apply f_equal2; field]. Qed.
