(** Free flight: the semi-implicit Euler scheme in closed form *)
From Coq Require Import List Arith ZArith Bool Reals Lra Lia.
From Verif Require Import Num Tensor Utils Bodies Forces Constraints Contacts World Lapack Pdipm Lcp Engines Spec GeoSpec JointSpec FreshSpec EngineSpec
     RBase ResFacts LinAlg LapackSpec KktSpec PdipmSpec WorldFacts HandlerFacts LayoutFacts HistFacts SysFacts RewindFacts JointFacts JeFacts FreshFacts
     CacheFacts BodyReach GeomFacts PdipmFacts PdipmLoop SolverFacts EngineFacts ContactSys EngineBalance MomentumFacts PostFacts HeldFacts FreeFacts.
Import ListNotations.
Open Scope R_scope.

Lemma set_p_with_v (b : body R) v p : set_p (with_v b v) p = with_v (set_p b p) v.
Proof.
  destruct b as [id k p0 v0 m i0 f r ep fs g]; destruct k; unfold set_p; cbn [b_kind b_p with_v].
  - reflexivity.
  - destruct (neqb (nsub (fst p) (fst p0)) n0); reflexivity.
  - destruct (neqb (nsub (fst p) (fst p0)) n0); reflexivity.
Qed.
Lemma still_set_p (b b' : body R) p : still b = still b' -> still (set_p b p) = still (set_p b' p).
Proof. unfold still. intros H. rewrite !forget_set_p, <- !set_p_with_v. now rewrite H. Qed.
Lemma still_fold ps : forall b b' : body R, still b = still b' -> still (fold_left set_p ps b) = still (fold_left set_p ps b').
Proof. induction ps as [|p ps IH]; intros b b' H; [exact H|]. cbn [fold_left]. apply IH. now apply still_set_p. Qed.
Lemma moved_steps : body_steps moved.
Proof.
  constructor; unfold moved.
  - intros a b c [p1 H1] [p2 H2]. exists (p1 ++ p2). rewrite fold_left_app, H2. now apply still_fold.
  - intros b v. exists []. apply still_with_v.
  - intros b p. now exists [p].
  - intros b b' H. exists []. cbn. now apply still_forget.
Qed.
Lemma body_apply_same h (b b' : body R) t : b_forces b' = b_forces b -> body_apply_forces h b' t = body_apply_forces h b t.
Proof. unfold body_apply_forces. now intros ->. Qed.
Lemma apply_forces_same (w a : world R) t : w_heap a = w_heap w -> Forall2 same_attrs (w_bodies w) (w_bodies a) -> world_apply_forces a t = world_apply_forces w t.
Proof.
  intros Hh HA. unfold world_apply_forces. rewrite Hh.
  assert (E : mapM (fun b => body_apply_forces (w_heap w) b t) (w_bodies a) = mapM (fun b => body_apply_forces (w_heap w) b t) (w_bodies w)).
  { induction HA as [|b b' l l' Hb HA IH]; [reflexivity|]. cbn [mapM]. rewrite IH, (body_apply_same _ b b'); [reflexivity|]. unfold same_attrs in Hb. tauto. }
  now rewrite E.
Qed.
Lemma attrs_common bs l1 l2 : Forall2 same_attrs bs l1 -> Forall2 same_attrs bs l2 -> Forall2 same_attrs l1 (l2 : list (body R)).
Proof.
  intros A. revert l2. induction A as [|a b l l' Hab A IH]; intros l2 A'; inversion A' as [|? d ? ? Had Q]; subst; constructor; [|now apply IH].
  clear - Hab Had. unfold same_attrs in *. intuition congruence.
Qed.

Section Flight.
Variables (la : lapack R) (mi fuel : nat) (o : oracle R) (hd : handler R) (bs : list (body R)) (J0 : list jent) (w0 : world R) (f : vecR) (n : nat).
Hypothesis HL : lapack_ok la.
Hypothesis Hf : handler_frame hd.
Hypothesis Hr : handler_respects hd.
Hypothesis Ho : broadphase_sane o.
Notation eng := (pdipm_engine la mi).
Notation dt := (w_dt w0).
Hypothesis S0 : sound bs [] J0 w0.
Hypothesis Hm : Forall (fun b : body R => b_mass b <> 0 /\ b_inertia b <> 0) (w_bodies w0).
Hypothesis HF : forall t, world_apply_forces w0 t = Ok f.
Hypothesis HC : forall m, (m <= n)%nat -> clear_at o hd w0 (flight_poses w0 dt f m).

Record flying (m : nat) (a : world R) : Prop := {
  fl_sound : sound bs [] J0 a;
  fl_valid : valid la a;
  fl_geom : Forall geom_ok (w_bodies a);
  fl_cfg : cfg a = cfg w0;
  fl_moved : Forall2 moved (w_bodies w0) (w_bodies a);
  fl_contacts : w_contacts a = [];
  fl_t : w_t a = w_t w0 + INR m * dt;
  fl_p : map b_p (w_bodies a) = flight_poses w0 dt f m;
  fl_v : map b_v (w_bodies a) = mapi (fun i b => flight_v dt (acceleration b (v3_at f i)) (b_v b) m) (w_bodies w0) }.

Lemma no_joints a : sound bs [] J0 a -> w_joints a = [].
Proof.
  intros S. destruct (so_found _ _ _ _ S) as (_ & _ & He & [_ Hj] & _). inversion He; subst. inversion Hj. reflexivity.
Qed.

Lemma flying_step m a a' : (m < n)%nat -> flying m a -> step_dt fuel o hd eng a dt = Ok a' -> flying (S m) a'.
Proof.
  intros Hmn [S V G C M EC Et Ep Evl] H.
  destruct (step_poses la mi fuel o hd bs [] J0 Hf Hr Ho a dt a' S V G H) as (v & c & k & w2 & dp & Es & S2 & V2 & Ev & Hdp & Et' & (w1 & E1 & Ht) & HP).
  destruct (solve_balance bs [] J0 a la mi S HL V dt v c Es) as (f' & imps & y & Ef & Lv & B & _).
  pose proof (attrs_common _ _ _ (so_attrs _ _ _ _ S0) (so_attrs _ _ _ _ S)) as A0.
  assert (Eh : w_heap a = w_heap w0) by (clear - C; cfg_fields C; auto).
  rewrite (apply_forces_same w0 a _ Eh A0), HF in Ef. injection Ef as <-.
  assert (Lf : length f = (3 * length (w_bodies a))%nat).
  { destruct (apply_forces_layout _ _ _ (HF 0)) as [L _]. rewrite L, (so_len _ _ _ _ S0), (so_len _ _ _ _ S). reflexivity. }
  assert (U : forall i, untouched a i) by (intros i; split; [rewrite EC|rewrite (no_joints a S)]; intros; contradiction).
  (** pointwise data *)
  assert (At : forall i b0, nth_error (w_bodies w0) i = Some b0 -> exists b, nth_error (w_bodies a) i = Some b /\ same_attrs b0 b /\
     b_p b = flight_p dt (acceleration b0 (v3_at f i)) (b_p b0) (b_v b0) m /\ b_v b = flight_v dt (acceleration b0 (v3_at f i)) (b_v b0) m).
  { intros i b0 Hb0. destruct (nth_error_Forall2_l _ _ _ _ _ A0 Hb0) as (b & Hb & Ab). exists b. split; [exact Hb|]. split; [exact Ab|].
    pose proof (f_equal (fun l => nth_error l i) Ep) as P1. pose proof (f_equal (fun l => nth_error l i) Evl) as P2. cbv beta in P1, P2. unfold flight_poses in P1.
    rewrite nth_error_map, mapi_nth, Hb, Hb0 in P1. rewrite nth_error_map, mapi_nth, Hb, Hb0 in P2. cbn in P1, P2. injection P1 as P1. injection P2 as P2. auto. }
  assert (Vi : forall i b0, nth_error (w_bodies w0) i = Some b0 -> v3_at v i = flight_v dt (acceleration b0 (v3_at f i)) (b_v b0) (Datatypes.S m)).
  { intros i b0 Hb0. destruct (At i b0 Hb0) as (b & Hb & Ab & _ & Pv). pose proof (free_body bs [] J0 a S i b dt f v imps y Lf (U i) Hb B) as E.
    destruct Ab as (_ & Em & Ei & _). assert (Hne : b_mass b0 <> 0 /\ b_inertia b0 <> 0) by (rewrite Forall_forall in Hm; apply Hm; eapply nth_error_In; eauto). destruct Hne as [N1 N2].
    unfold body_momentum in E. rewrite Em, Ei, Pv in E. unfold flight_v, acceleration in *. unfold v3add, v3scale, v2add, v2scale in *. cbn [fst snd] in *. rewrite S_INR.
    destruct (v3_at v i) as [v1 [v2 v3]], (v3_at f i) as [f1 [f2 f3]], (b_v b0) as [u1 [u2 u3]]. cbn [fst snd] in *. rnum. injection E as Q1 Q2 Q3.
    apply f_equal2; [|apply f_equal2].
    - apply (Rmult_eq_reg_l (b_inertia b0)); [|exact N2]. rewrite Q1. field. exact N2.
    - apply (Rmult_eq_reg_l (b_mass b0)); [|exact N1]. rewrite Q2. field. exact N1.
    - apply (Rmult_eq_reg_l (b_mass b0)); [|exact N1]. rewrite Q3. field. exact N1. }
  assert (Adv : forall i b0 b, nth_error (w_bodies w0) i = Some b0 -> b_p b = flight_p dt (acceleration b0 (v3_at f i)) (b_p b0) (b_v b0) m ->
     v3add (b_p b) (v3scale dt (v3_at v i)) = flight_p dt (acceleration b0 (v3_at f i)) (b_p b0) (b_v b0) (Datatypes.S m)).
  { intros i b0 b Hb0 Pb. rewrite Pb, (Vi i b0 Hb0). unfold flight_p, flight_v, v3add, v3scale, v2add, v2scale. cbn [fst snd]. rnum. rewrite S_INR. apply f_equal2; [|apply f_equal2]; field. }
  assert (Next : forall (l : list (body R)), (forall i b, nth_error (w_bodies a) i = Some b -> exists b', nth_error l i = Some b' /\ b_p b' = v3add (b_p b) (v3scale dt (v3_at v i))) ->
     length l = length (w_bodies a) -> map b_p l = flight_poses w0 dt f (Datatypes.S m)).
  { intros l Hl Ll. apply nth_error_ext. intros i. unfold flight_poses. rewrite nth_error_map, mapi_nth. destruct (nth_error (w_bodies w0) i) as [b0|] eqn:Hb0.
    - destruct (At i b0 Hb0) as (b & Hb & _ & Pb & _). destruct (Hl i b Hb) as (b' & Hb' & Pb'). rewrite Hb'. cbn. apply (f_equal Some). rewrite Pb'. now apply Adv.
    - apply nth_error_None in Hb0. assert (Q : nth_error l i = None); [|now rewrite Q]. apply nth_error_None. rewrite Ll, (so_len _ _ _ _ S), <- (so_len _ _ _ _ S0). exact Hb0. }
  assert (C1 : cfg w1 = cfg a) by (rewrite (set_v_cfg _ _ _ E1); reflexivity).
  assert (M1 : Forall2 moved (w_bodies w0) (w_bodies w1)).
  { eapply Forall2_trans'; [apply moved_steps|exact M|]. apply set_v_inv in E1. destruct E1 as [_ ->]. cbn. apply Forall2_mapi. intros. apply (bs_v _ moved_steps). }
  (** the first trial finds nothing *)
  assert (First : forall wm wf, move_all w1 dt = Ok wm -> find_contacts o hd wm = Ok wf -> w_contacts wf = []).
  { intros wm wf Em Ef. apply (HC (Datatypes.S m) Hmn).
    - eapply Forall2_trans'; [apply moved_steps| |apply Forall2_forget'; [apply moved_steps|eapply find_contacts_frame; eauto]].
      eapply Forall2_trans'; [apply moved_steps|exact M1|]. apply move_all_inv in Em. destruct Em as [jj ->]. cbn. apply HistFacts.Forall2_map_r. intros. apply (bs_p _ moved_steps).
    - pose proof (find_contacts_cfg _ _ _ _ Ef) as Q1. pose proof (move_all_cfg _ _ _ Em) as Q2. clear - Q1 Q2 C1 C. cfg_fields Q1. cfg_fields Q2. cfg_fields C1. cfg_fields C. congruence.
    - pose proof (find_contacts_frame _ _ _ _ Hf Ef) as Q.
      assert (PB : map b_p (w_bodies wf) = map b_p (w_bodies wm)).
      { rewrite <- (map_ext _ _ forget_p), <- (map_ext _ _ forget_p (w_bodies wm)). rewrite <- (map_map forget b_p), <- (map_map forget b_p (w_bodies wm)). now rewrite Q. }
      rewrite PB. apply move_all_inv in Em. destruct Em as [jj ->]. apply set_v_inv in E1. destruct E1 as [_ ->]. cbn [w_bodies with_state with_cache]. apply Next; [|now rewrite map_length, mapi_length'].
      intros i b Hb. rewrite nth_error_map, mapi_nth, Hb. eexists. split; [reflexivity|]. unfold move. rewrite set_p_p. reflexivity.
    - exact (find_contacts_current _ _ _ _ Hf Ef). }
  assert (K0 : w_contacts w2 = [] /\ dt / 2 ^ k = dt).
  { inversion Ht as [? ? wm wf Em Ef _ | ? ? wm wf wr k' ? ? Em Ef Np]; subst.
    - split; [exact (First _ _ Em Ef)|]. cbn. field.
    - exfalso. unfold no_penetration in Np. rewrite (First _ _ Em Ef) in Np. discriminate. }
  destruct K0 as [EC2 Ek]. rewrite Ek in *. clear Ht First.
  assert (Lb : length (w_bodies w2) = length (w_bodies a)) by (rewrite (so_len _ _ _ _ S2), (so_len _ _ _ _ S); reflexivity).
  assert (Zdp : forall i, (i < length (w_bodies a))%nat -> v3_at dp i = (0, (0, 0))).
  { intros i Hi. destruct Hdp as [[_ ->]|[_ Hdp]]; [unfold v3_at; rewrite !vget_zeros; reflexivity|].
    destruct (post_balance bs [] J0 w2 la S2 HL V2 dp Hdp) as (Ld & _ & lam & y2 & _ & Ly2 & B2).
    assert (Bz : forall x, length x = (3 * length (w_bodies w2))%nat -> kinetic w2 x dp = 0).
    { intros x Hx. rewrite (B2 x Hx), EC2. unfold constraint_velocity. rewrite (no_joints w2 S2). cbn [flat_map]. rewrite dot_nil_r. unfold contact_power. destruct (map (fun l => (l, 0)) lam); cbn; ring. }
    destruct (nth_error (w_bodies w2) i) as [b2|] eqn:Hb2; [|apply nth_error_None in Hb2; lia].
    assert (Hne : b_mass b2 <> 0 /\ b_inertia b2 <> 0).
    { destruct (nth_error_Forall2 _ _ _ _ _ (attrs_common _ _ _ (so_attrs _ _ _ _ S0) (so_attrs _ _ _ _ S2)) Hb2) as (b0 & Hb0 & (_ & Em & Ei & _)). rewrite Em, Ei.
      rewrite Forall_forall in Hm; apply Hm; eapply nth_error_In; eauto. }
    destruct Hne as [N1 N2].
    assert (B0 : balance w2 0 (vzeros (3 * length (w_bodies w2))) (vadd (w_v w2) dp) [] [] (vzeros (3 * length (w_bodies w2)))).
    { split; [now rewrite EC2|]. split; [destruct (so_found _ _ _ _ S2) as (_ & _ & _ & _ & Q); cbn in Q; now rewrite Q|]. intros x Hx.
      pose proof (so_vlen _ _ _ _ S2) as L2. rewrite EC2. unfold constraint_velocity. rewrite (no_joints w2 S2). cbn [flat_map]. rewrite dot_nil_r, !dot_zeros_l. unfold contact_power. cbn [map2 Rsum fold_right].
      rewrite <- (kinetic_dot w2 x (vadd (w_v w2) dp) (so_M _ _ _ _ S2) Hx) by (rewrite vadd_length; lia). rewrite mv_vadd by lia.
      rewrite dot_vadd_r by (rewrite !mv_length; reflexivity). rewrite !(kinetic_dot w2) by (auto; apply (so_M _ _ _ _ S2)). rewrite (Bz x Hx). ring. }
    assert (U2 : untouched w2 i) by (split; [rewrite EC2|rewrite (no_joints w2 S2)]; intros; contradiction).
    pose proof (free_body bs [] J0 w2 S2 i b2 0 _ _ _ _ (vzeros_length _) U2 Hb2 B0) as E.
    assert (Va : v3_at (vadd (w_v w2) dp) i = v3add (b_v b2) (v3_at dp i)).
    { rewrite (aligned_reads _ _ _ (so_v _ _ _ _ S2) Hb2). pose proof (so_vlen _ _ _ _ S2) as L2. assert (i < length (w_bodies w2))%nat by (apply nth_error_Some; congruence).
      unfold v3_at. rewrite !vget_vadd by lia. reflexivity. }
    rewrite Va in E. unfold body_momentum, v3add, v3scale, v2add, v2scale, v3_at in E. rewrite !vget_zeros in E. cbn [fst snd] in E. unfold v3_at.
    set (d1 := vget dp (3 * i)) in *. set (d2 := vget dp (3 * i + 1)) in *. set (d3 := vget dp (3 * i + 2)) in *. destruct (b_v b2) as [u1 [u2 u3]]. cbn [fst snd] in E. rnum. injection E as Q1 Q2 Q3.
    assert (Q : forall k x y : R, k <> 0 -> k * (x + y) = k * x + 0 * 0 -> y = 0). { intros k0 x y0 Hk HQ. apply (Rmult_eq_reg_l k0); [lra|exact Hk]. }
    apply f_equal2; [exact (Q _ _ _ N2 Q1)|apply f_equal2; [exact (Q _ _ _ N1 Q2)|exact (Q _ _ _ N1 Q3)]]. }
  assert (La : length (w_bodies a') = length (w_bodies a)) by (symmetry; apply (Forall2_len _ _ _ (step_dt_attrs _ _ _ _ _ _ _ Hf H))).
  assert (Sa : sound bs [] J0 a') by exact (sound_step_dt bs [] J0 o hd Hf Hr Ho fuel eng a dt a' S H).
  assert (Pa : map b_p (w_bodies a') = flight_poses w0 dt f (Datatypes.S m)).
  { apply Next; [|exact La]. intros i b Hb. destruct (HP i b Hb) as (b' & Hb' & Pb'). exists b'. split; [exact Hb'|]. rewrite Pb', Zdp by (apply nth_error_Some; congruence).
    unfold v3add, v3scale, v2add, v2scale. cbn [fst snd]. rnum. apply f_equal2; [|apply f_equal2]; ring. }
  assert (Ma : Forall2 moved (w_bodies w0) (w_bodies a')) by exact (step_dt_bodies _ moved_steps fuel o hd eng w0 a dt a' Hf M H).
  assert (Ca : cfg a' = cfg w0) by (rewrite <- C; eapply step_dt_cfg; eauto).
  constructor; auto.
  - exact (valid_step _ _ _ _ _ _ _ _ Hf V H).
  - assert (Q : Forall2 geom_rel (w_bodies a) (w_bodies a')) by (eapply step_dt_bodies; eauto; [apply geom_steps|apply Forall2_refl', geom_steps]).
    clear - Q G. revert G. induction Q as [|x y l l' Hxy Q IH]; intros G; constructor; apply Forall_cons_iff in G; [now apply Hxy|apply IH, G].
  - apply (HC (Datatypes.S m) Hmn); auto; [clear - Ca; cfg_fields Ca; congruence|]. exact (step_dt_current _ _ _ _ _ _ _ Hf H).
  - rewrite Et', Et, S_INR. ring.
  - apply nth_error_ext. intros i. rewrite nth_error_map, mapi_nth. destruct (nth_error (w_bodies w0) i) as [b0|] eqn:Hb0.
    + destruct (At i b0 Hb0) as (b & Hb & _). destruct (HP i b Hb) as (b' & Hb' & _). rewrite Hb'. cbn. apply (f_equal Some).
      rewrite (aligned_reads _ _ _ (so_v _ _ _ _ Sa) Hb'). destruct (step_dt_v _ _ _ _ _ _ _ H) as (v' & c' & Es' & ->). cbn [e_solve pdipm_engine] in Es'. rewrite Es in Es'. injection Es' as <- <-. now apply Vi.
    + apply nth_error_None in Hb0. assert (Q : nth_error (w_bodies a') i = None); [|now rewrite Q]. apply nth_error_None. rewrite La, (so_len _ _ _ _ S), <- (so_len _ _ _ _ S0). exact Hb0.
Qed.
End Flight.

Lemma flying_cfg_dt la bs J0 w0 f m a : flying la bs J0 w0 f m a -> w_dt a = w_dt w0.
Proof. intros [_ _ _ C _ _ _ _ _]. cfg_fields C. congruence. Qed.
Lemma flight_start la bs J0 w0 f o hd : sound bs [] J0 w0 -> valid la w0 -> Forall geom_ok (w_bodies w0) -> contacts_current o hd w0 ->
  clear_at o hd w0 (flight_poses w0 (w_dt w0) f 0) -> flying la bs J0 w0 f 0 w0.
Proof.
  intros S V G HC Hcl.
  assert (P : map b_p (w_bodies w0) = flight_poses w0 (w_dt w0) f 0).
  { apply nth_error_ext. intros i. unfold flight_poses. rewrite nth_error_map, mapi_nth. destruct (nth_error (w_bodies w0) i) as [b|]; [|reflexivity]. cbn. apply (f_equal Some).
    unfold flight_p, v3add, v3scale, v2add, v2scale. destruct (b_p b) as [p1 [p2 p3]]. cbn [fst snd]. cbn [INR]. rnum. apply f_equal2; [|apply f_equal2]; field. }
  constructor; auto.
  - apply Forall2_refl', moved_steps.
  - apply Hcl; auto. apply Forall2_refl', moved_steps.
  - cbn. ring.
  - apply nth_error_ext. intros i. rewrite nth_error_map, mapi_nth. destruct (nth_error (w_bodies w0) i) as [b|]; [|reflexivity]. cbn. apply (f_equal Some).
    unfold flight_v, v3add, v3scale, v2add, v2scale. destruct (b_v b) as [p1 [p2 p3]]. cbn [fst snd]. cbn [INR]. rnum. apply f_equal2; [|apply f_equal2]; ring.
Qed.
Lemma flight_exec la mi fuel o hd bs J0 w0 f : lapack_ok la -> handler_frame hd -> handler_respects hd -> broadphase_sane o ->
  sound bs [] J0 w0 -> Forall (fun b : body R => b_mass b <> 0 /\ b_inertia b <> 0) (w_bodies w0) -> (forall t, world_apply_forces w0 t = Ok f) -> 0 < w_dt w0 ->
  forall fixed n, (forall m, (m <= n)%nat -> clear_at o hd w0 (flight_poses w0 (w_dt w0) f m)) -> length fixed = n ->
  forall j a w, (j <= n)%nat -> flying la bs J0 w0 f j a -> exec fuel o hd (pdipm_engine la mi) (map (@OStep R) (skipn j fixed)) a = Ok w -> flying la bs J0 w0 f n w.
Proof.
  intros HL Hf Hr Ho S0 Hm HF Hdt fixed n HC Hn j a w Hj. remember (n - j)%nat as d eqn:Ed. revert j a Hj Ed.
  induction d as [|d IH]; intros j a Hj Ed Fl H.
  - assert (j = n) by lia. subst j. rewrite skipn_all2 in H by lia. cbn in H. injection H as <-. exact Fl.
  - destruct (skipn j fixed) as [|fx rest] eqn:Es; [pose proof (skipn_length j fixed) as Q; rewrite Es in Q; cbn in Q; lia|].
    assert (Er : rest = skipn (S j) fixed).
    { clear - Es. revert fixed Es. induction j as [|j IH]; intros [|x l] Es; cbn in Es |- *; try discriminate; [now injection Es|exact (IH _ Es)]. }
    cbn [map exec] in H. bind_inv H as a1 E1. rewrite Er in H. assert (Hlt : (j < n)%nat) by lia.
    apply (IH (S j) a1); [lia|lia| |exact H].
    pose proof (flying_cfg_dt _ _ _ _ _ _ _ Fl) as Edt.
    assert (Step : forall a', step_dt fuel o hd (pdipm_engine la mi) a (w_dt w0) = Ok a' -> flying la bs J0 w0 f (S j) a').
    { intros a' Ha. eapply (flying_step la mi fuel o hd bs J0 w0 f n); eauto. }
    unfold step in E1. destruct fx; [|rewrite Edt in E1; auto].
    destruct fuel as [|fuel']; [discriminate|]. cbn [fixed_loop] in E1. rewrite Edt in E1. rnum.
    destruct (Rltb_spec (w_t a) (w_t a + w_dt w0)); [|lra]. replace (w_t a + w_dt w0 - w_t a) with (w_dt w0) in E1 by ring.
    bind_inv E1 as a2 E2. apply Step in E2. destruct fuel' as [|fuel'']; [discriminate|]. cbn [fixed_loop] in E1. rnum.
    rewrite (fl_t _ _ _ _ _ _ _ E2), (fl_t _ _ _ _ _ _ _ Fl), S_INR in E1. destruct (Rltb_spec (w_t w0 + (INR j + 1) * w_dt w0) (w_t w0 + INR j * w_dt w0 + w_dt w0)); [lra|]. now injection E1 as <-.
Qed.
Theorem flight la mi fuel o hd heap bs dt eps tol fd ps st w0 f fixed w :
  lapack_ok la -> handler_frame hd -> handler_respects hd -> broadphase_sane o -> NoDup (map b_id bs) -> Forall geom_ok bs ->
  world_init o hd heap bs [] dt eps tol fd ps st = Ok w0 -> 0 < dt ->
  Forall (fun b : body R => b_mass b <> 0 /\ b_inertia b <> 0) bs ->
  (forall t, world_apply_forces w0 t = Ok f) ->
  (forall m, (m <= length fixed)%nat -> clear_at o hd w0 (flight_poses w0 dt f m)) ->
  exec fuel o hd (pdipm_engine la mi) (map (@OStep R) fixed) w0 = Ok w ->
  w_t w = w_t w0 + INR (length fixed) * dt /\ w_contacts w = [] /\
  map b_p (w_bodies w) = flight_poses w0 dt f (length fixed) /\
  map b_v (w_bodies w) = mapi (fun i b => flight_v dt (acceleration b (v3_at f i)) (b_v b) (length fixed)) (w_bodies w0).
Proof.
  intros HL Hf Hr Ho Hnd Hg H0 Hdt Hm HF HC H.
  assert (S0 : sound bs [] (w_joints w0) w0) by (eapply sound_init; eauto).
  destruct (init_valid la _ _ _ _ _ _ _ _ _ _ _ _ Hf H0) as [V _].
  assert (G : Forall geom_ok (w_bodies w0)).
  { pose proof (world_init_bodies _ geom_steps _ _ _ _ _ _ _ _ _ _ _ _ Hf H0) as Q. clear - Q Hg. revert Hg. induction Q as [|x y l l' Hxy Q IH]; intros G; constructor; apply Forall_cons_iff in G; [now apply Hxy|apply IH, G]. }
  assert (Edt : w_dt w0 = dt).
  { clear - H0. unfold world_init in H0. destruct bs; [discriminate|]. bind_inv H0 as js Ej. bind_inv H0 as w1 E1. bind_inv H0 as w2 E2.
    destruct (_ && _)%bool; [discriminate|]. injection H0 as <-. apply find_contacts_cfg in E2. apply set_v_cfg in E1. cfg_fields E2. cfg_fields E1. cbn in *. congruence. }
  assert (Hm0 : Forall (fun b : body R => b_mass b <> 0 /\ b_inertia b <> 0) (w_bodies w0)).
  { pose proof (so_attrs _ _ _ _ S0) as Q. clear - Q Hm. revert Hm. induction Q as [|x y l l' Hxy Q IH]; intros G; constructor; apply Forall_cons_iff in G; [|apply IH, G].
    destruct Hxy as (_ & E1 & E2 & _). rewrite E1, E2. apply G. }
  rewrite <- Edt in HC, Hdt |- *.
  assert (F0 : flying la bs (w_joints w0) w0 f 0 w0) by (eapply flight_start; eauto using init_current; apply (HC 0%nat); lia).
  pose proof (flight_exec la mi fuel o hd bs (w_joints w0) w0 f HL Hf Hr Ho S0 Hm0 HF Hdt fixed (length fixed) HC eq_refl 0%nat w0 w ltac:(lia) F0 H) as Fl.
  destruct Fl. auto.
Qed.
