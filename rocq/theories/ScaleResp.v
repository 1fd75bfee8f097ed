(** Units of mass and time: contact responses, constructors, gravity *)
From Coq Require Import List Arith ZArith Bool Reals Lra Lia.
From Verif Require Import Num Tensor Utils Bodies Forces Constraints Contacts World Spec GeoSpec JointSpec EngineSpec SymSpec BoostSpec WellSpec ScaleSpec
     RBase ResFacts LinAlg LayoutFacts JointFacts JeFacts EngineFacts ContactSys EngineBalance MomentumFacts LcpBoost BoostFacts ScaleFacts.
Import ListNotations.
Open Scope R_scope.

Lemma map_repeat' {A B} (f : A -> B) a n : map f (repeat a n) = repeat (f a) n.
Proof. induction n as [|n IH]; [reflexivity|]. cbn [repeat map]. now rewrite IH. Qed.

Section Response.
Variables (c tau : R).
Hypothesis Hc : 0 < c.
Hypothesis Ht : 0 < tau.
Notation rb := (rescale_body c tau).

Lemma measured_scale k a x1 u1 o r : measured k a x1 (v3scale r u1) (option_map (fun p => (fst p, v3scale r (snd p))) o) = vscale r (measured k a x1 u1 o).
Proof.
  destruct u1 as [w1 [u1 u1']]. destruct o as [[x2 [w2 [u2 u2']]]|]; destruct k; cbn [measured option_map fst snd]; try reflexivity;
    unfold v2l, point_velocity, v2sub, v3scale, v2scale, vscale; cbn [fst snd map app]; rnum; repeat (apply f_equal2; [ring|]); reflexivity.
Qed.
Lemma v3_at_vscale k (x : vecR) i : v3_at (vscale k x) i = v3scale k (v3_at x i).
Proof. unfold v3_at, v3scale, v2scale. cbn [fst snd]. rewrite !vget_vscale. reflexivity. Qed.
Lemma cv_vscale w r x : constraint_velocity w (vscale r x) = vscale r (constraint_velocity w x).
Proof.
  unfold constraint_velocity. induction (w_joints w) as [|[[j i1] i2] l IH]; [reflexivity|]. cbn [flat_map]. rewrite vscale_app, <- IH. f_equal. clear IH.
  destruct (nth_error (w_bodies w) i1) as [b1|]; [|reflexivity]. rewrite <- measured_scale, v3_at_vscale. f_equal. destruct i2 as [i|]; [|reflexivity].
  destruct (nth_error (w_bodies w) i); [|reflexivity]. cbn [option_map fst snd]. now rewrite v3_at_vscale.
Qed.
Lemma component_scale d r (u : v2 R) : component d (v2scale r u) = r * component d u.
Proof. destruct d, u. unfold component, v2scale. cbn [fst snd]. rnum. ring. Qed.
Lemma relative_scale r x k : relative_velocity (vscale r x) k = v2scale r (relative_velocity x k).
Proof.
  unfold relative_velocity. rewrite !v3_at_vscale. destruct (v3_at x (c_i1 k)) as [w1 [u1 u1']], (v3_at x (c_i2 k)) as [w2 [u2 u2']].
  unfold point_velocity, v2sub, v3scale, v2scale. cbn [fst snd]. rnum. apply f_equal2; ring.
Qed.
Lemma normal_scale r x k : normal_velocity (vscale r x) k = r * normal_velocity x k.
Proof. unfold normal_velocity. rewrite relative_scale. apply component_scale. Qed.
Lemma slip_scale r x k : slip_velocity (vscale r x) k = r * slip_velocity x k.
Proof. unfold slip_velocity. rewrite relative_scale. apply component_scale. Qed.

Lemma power_scale cs imps x : contact_power cs (rescale_imps c tau imps) x = c / tau * contact_power cs imps x.
Proof.
  unfold contact_power, rescale_imps. revert imps. induction cs as [|k cs IH]; intros [|im imps]; cbn [map map2]; unfold Rsum in *; cbn [fold_right]; try (rnum; ring).
  rewrite IH. cbn [fst snd]. rnum. ring.
Qed.

Variables (w w' : world R).
Hypothesis H : rescaled c tau w w'.

Lemma rsw_len : length (w_bodies w') = length (w_bodies w).
Proof. rewrite (rs_bodies _ _ _ _ H). apply map_length. Qed.
Lemma rsw_kinetic x v : kinetic w' x (vscale (/ tau) v) = c / tau * kinetic w x v.
Proof.
  unfold kinetic. rewrite (rs_bodies _ _ _ _ H). unfold mapi. generalize 0%nat. induction (w_bodies w) as [|b l IH]; intros k; cbn [map mapi_from]; unfold Rsum in *; cbn [fold_right]; [rnum; ring|].
  rewrite IH. rewrite v3_at_vscale. cbn [rescale_body b_mass b_inertia v3scale fst snd]. rewrite component_scale. rnum. field. lra.
Qed.
Lemma rsw_at g i : (forall b, g (rb b) = g b) -> body_at (w_bodies w') g i = body_at (w_bodies w) g i.
Proof. intros Hg. unfold body_at. rewrite (rs_bodies _ _ _ _ H), nth_error_map. destruct (nth_error (w_bodies w) i); cbn; auto. Qed.
Lemma rsw_mixed g k : (forall b, g (rb b) = g b) -> mixed w' g k = mixed w g k.
Proof. intros Hg. unfold mixed. now rewrite !rsw_at. Qed.
Lemma rsw_cv x : constraint_velocity w' x = constraint_velocity w x.
Proof.
  unfold constraint_velocity. rewrite (rs_joints _ _ _ _ H), (rs_bodies _ _ _ _ H). apply flat_map_ext. intros [[j i1] i2]. rewrite nth_error_map.
  destruct (nth_error (w_bodies w) i1); [|reflexivity]. cbn [option_map]. change (b_pos (rb b)) with (b_pos b). f_equal. destruct i2 as [i|]; [|reflexivity]. rewrite nth_error_map.
  destruct (nth_error (w_bodies w) i); reflexivity.
Qed.
Lemma rsw_forces t f : world_apply_forces w t = Ok f -> world_apply_forces w' (tau * t) = Ok (vscale (c / (tau * tau)) f).
Proof.
  intros E. rewrite <- (rs_forces c tau (w_heap w') None w t f (rs_heap _ _ _ _ H) E). unfold world_apply_forces. cbn [rw w_heap w_bodies]. now rewrite (rs_bodies _ _ _ _ H).
Qed.
Lemma scale_coulomb v k l s : coulomb w v k l s -> coulomb w' (vscale (/ tau) v) k (c / tau * l) (c / tau * s).
Proof.
  intros [A B D E F]. assert (P : 0 < c / tau) by (apply Rdiv_lt_0_compat; auto). assert (Q : 0 < / tau) by (apply Rinv_0_lt_compat; auto).
  constructor.
  - apply Rmult_le_pos; lra.
  - rewrite rsw_mixed, (rs_v _ _ _ _ H), !normal_scale by reflexivity. replace (- mixed w b_rest k * (/ tau * normal_velocity (w_v w) k)) with (/ tau * (- mixed w b_rest k * normal_velocity (w_v w) k)) by ring. apply Rmult_le_compat_l; lra.
  - intros Hl. rewrite rsw_mixed, (rs_v _ _ _ _ H), !normal_scale by reflexivity. rewrite D; [ring|]. apply (Rmult_lt_reg_l (c / tau)); [exact P|]. now rewrite Rmult_0_r.
  - rewrite rsw_mixed by reflexivity. rewrite Rabs_mult, (Rabs_right (c / tau)) by lra. replace (mixed w b_fric k * (c / tau * l)) with (c / tau * (mixed w b_fric k * l)) by ring. apply Rmult_le_compat_l; lra.
  - rewrite rsw_mixed, slip_scale by reflexivity. rewrite Rabs_mult, (Rabs_right (/ tau)) by lra. replace (c / tau * s * (/ tau * slip_velocity v k)) with (c / tau * / tau * (s * slip_velocity v k)) by ring. rewrite F. ring.
Qed.
Lemma scale_response_to dt v imps : response w dt v imps -> response w' (tau * dt) (vscale (/ tau) v) (rescale_imps c tau imps).
Proof.
  intros (f & y & Hf & Lv & (Li & Ly & B) & Hcv & Hco). exists (vscale (c / (tau * tau)) f), (vscale (c / tau) y).
  split; [rewrite (rs_t _ _ _ _ H); apply rsw_forces, Hf|]. split; [rewrite vscale_length, rsw_len; exact Lv|]. split; [|split].
  - unfold rescale_imps. split; [rewrite map_length, (rs_contacts _ _ _ _ H); exact Li|]. split; [rewrite vscale_length, (rs_rows _ _ _ _ H); exact Ly|].
    intros x Hx. rewrite rsw_len in *. rewrite rsw_kinetic, (rs_v _ _ _ _ H), rsw_kinetic, (B x Hx), (rs_contacts _ _ _ _ H), rsw_cv, dot_vscale_l. fold (rescale_imps c tau imps). rewrite power_scale.
    rewrite (dot_comm x (vscale _ _)), dot_vscale_l, (dot_comm f x), !dot_zeros_l. field. lra.
  - rewrite rsw_cv, cv_vscale, Hcv, (rs_rows _ _ _ _ H). unfold vscale, vzeros. rewrite map_repeat'. rnum. now rewrite Rmult_0_r.
  - rewrite (rs_contacts _ _ _ _ H). clear - Hc Ht H Hco. induction Hco as [|k im cs ims Hk _ IH]; [constructor|]. constructor; [|exact IH]. cbn [fst snd]. apply scale_coulomb, Hk.
Qed.
End Response.

Lemma v3scale_inv k u : k <> 0 -> v3scale (/ k) (v3scale k u) = (u : v3 R).
Proof. intros Hk. destruct u as [a [b d]]. unfold v3scale, v2scale. cbn [fst snd]. rnum. apply f_equal2; [|apply f_equal2]; field; auto. Qed.
Lemma vscale_inv k (x : vecR) : k <> 0 -> vscale (/ k) (vscale k x) = x.
Proof. intros Hk. unfold vscale. rewrite map_map. rewrite <- (map_id x) at 2. apply map_ext. intros a. rnum. field. auto. Qed.
Lemma rescaled_sym c tau w w' : 0 < c -> 0 < tau -> rescaled c tau w w' -> rescaled (/ c) (/ tau) w' w.
Proof.
  intros Hc Ht [A B D E F G I]. constructor; auto.
  - rewrite A. field. lra.
  - rewrite B, map_map. rewrite <- (map_id (w_bodies w)) at 1. apply map_ext. intros [id kd p v m i f r e fs g]. unfold rescale_body. cbn [b_id b_kind b_p b_v b_mass b_inertia b_fric b_rest b_eps b_forces b_geom].
    rewrite v3scale_inv by (apply Rinv_neq_0_compat; lra). f_equal; field; lra.
  - rewrite D. rewrite vscale_inv; [reflexivity|apply Rinv_neq_0_compat; lra].
  - clear - I Hc Ht. induction I as [|f f' l l' Hf _ IH]; constructor; [|exact IH]. intros t. specialize (Hf (/ tau * t)). replace (tau * (/ tau * t)) with t in Hf by (field; lra).
    unfold alike in *. destruct (force_value f (/ tau * t)) as [u|], (force_value f' t) as [u'|]; auto; try contradiction. subst u'.
    replace (/ c / (/ tau * / tau)) with (/ (c / (tau * tau))) by (field; lra). symmetry. apply v3scale_inv. assert (0 < c / (tau * tau)) by (apply Rdiv_lt_0_compat; [lra|apply Rmult_lt_0_compat; lra]). lra.
Qed.
Theorem scale_response c tau w w' dt v imps : 0 < c -> 0 < tau -> rescaled c tau w w' ->
  (response w dt v imps <-> response w' (tau * dt) (vscale (/ tau) v) (rescale_imps c tau imps)).
Proof.
  intros Hc Ht H. split; [apply scale_response_to; auto|]. intros Hr. apply (scale_response_to (/ c) (/ tau) (Rinv_0_lt_compat _ Hc) (Rinv_0_lt_compat _ Ht) w' w (rescaled_sym _ _ _ _ Hc Ht H)) in Hr.
  rewrite vscale_inv in Hr by (apply Rinv_neq_0_compat; lra). replace (/ tau * (tau * dt)) with dt in Hr by (field; lra).
  replace (rescale_imps (/ c) (/ tau) (rescale_imps c tau imps)) with imps in Hr; [exact Hr|]. unfold rescale_imps. rewrite map_map. rewrite <- (map_id imps) at 1. apply map_ext. intros [l s]. cbn [fst snd]. apply f_equal2; field; lra.
Qed.

(** *** constructors *)
Section Constructors.
Variables (c tau : R).
Notation rb := (rescale_body c tau).
Lemma inertia_scale k m : kind_inertia k (c * m) = c * kind_inertia k m.
Proof.
  destruct k as [r|vs i|d vs i]; unfold kind_inertia, circle_inertia, hull_inertia, rect_inertia; [| |rnum; unfold Rdiv; ring]; [rnum; unfold Rdiv; ring|].
  destruct (fold_left _ (seq 0 (length vs)) _) as [num den]. rnum. unfold Rdiv. ring.
Qed.
Lemma to_v3_scale l : to_v3 (vscale (/ tau) l) = result_map (v3scale (/ tau)) (to_v3 l).
Proof. destruct l as [|a [|b [|d [|e l]]]]; try reflexivity. cbn. unfold v3scale, v2scale. cbn [fst snd]. rnum. now rewrite Rmult_0_r. Qed.
Lemma body_init_scale id k pos vel m e mu eps : body_init id k pos (vscale (/ tau) vel) (c * m) e mu eps = result_map rb (body_init id k pos vel m e mu eps).
Proof.
  unfold body_init. destruct (to_v3 pos) as [p|]; [|reflexivity]. cbn [bind]. rewrite to_v3_scale. destruct (to_v3 vel) as [v|]; [|reflexivity]. cbn [bind result_map].
  unfold rescale_body. cbn [b_id b_kind b_p b_v b_mass b_inertia b_fric b_rest b_eps b_forces b_geom]. rewrite inertia_scale. reflexivity.
Qed.
Lemma hull_gen_scale mk id rp vs vel m e mu eps : hull_init_gen mk id rp vs (vscale (/ tau) vel) (c * m) e mu eps = result_map rb (hull_init_gen mk id rp vs vel m e mu eps).
Proof. unfold hull_init_gen. destruct (andb _ _); [|reflexivity]. apply body_init_scale. Qed.
Lemma rect_scale id pos dims vel m e mu eps : rect_init id pos dims (vscale (/ tau) vel) (c * m) e mu eps = result_map rb (rect_init id pos dims vel m e mu eps).
Proof.
  unfold rect_init. destruct (to_v3 pos) as [p|]; [|reflexivity]. cbn [bind]. rewrite hull_gen_scale. destruct (hull_init_gen _ _ _ _ _ _ _ _ _) as [b|]; [|reflexivity]. cbn [result_map bind].
  destruct (length pos =? 3)%nat; [|reflexivity]. cbn [result_map]. now rewrite rs_set_p.
Qed.
Lemma joint_scale b1 ob2 pos : joint_init (rb b1) (option_map rb ob2) pos = joint_init b1 ob2 pos.
Proof. destruct ob2; reflexivity. Qed.
Lemma gravity_scale g k m : tau <> 0 -> rescaled_force c tau (set_body (FGrav g k) m) (set_body (FGrav (g / (tau * tau)) k) (c * m)).
Proof.
  intros Ht t. cbn. unfold v3mulr, v3scale, v2scale. cbn [fst snd]. rnum. apply f_equal2; [|apply f_equal2]; field; auto.
Qed.
Lemma external_scale f m : tau <> 0 -> rescaled_force c tau (FExt f m) (FExt (fun t => f (t / tau)) (c / (tau * tau) * m)).
Proof.
  intros Ht t. cbn. replace (tau * t / tau) with t by (field; auto). unfold v3mulr, v3scale, v2scale. cbn [fst snd]. rnum. apply f_equal2; [|apply f_equal2]; ring.
Qed.
End Constructors.
