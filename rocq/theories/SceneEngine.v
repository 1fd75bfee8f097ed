(** The engine's answers for two descriptions of the same scene *)
From Coq Require Import List Arith ZArith Bool Reals Lia Lra Permutation.
From Verif Require Import Num Tensor Utils Bodies Forces Constraints Contacts World Lapack Pdipm Lcp Engines Spec GeoSpec BodySpec JointSpec ContactSpec EngineSpec SymSpec SceneSpec
     RBase ResFacts LinAlg LapackSpec KktSpec PdipmSpec WorldFacts HandlerFacts LayoutFacts HistFacts SysFacts RewindFacts JointFacts JeFacts CacheFacts BodyReach PdipmFacts PdipmLoop SolverFacts EngineFacts
     ContactSys EngineBalance LcpSym PlaneFacts BodyFacts GeomFacts ContactFacts ListedFacts SceneFacts SceneContacts.
Import ListNotations.
Open Scope R_scope.

(** *** more on listed *)
Lemma listed_F2 {A B C D} (r : A -> B -> Prop) (q : A -> C -> Prop) (q' : B -> D -> Prop) (r2 : C -> D -> Prop) P l l' m m' :
  listed r P l l' -> Forall2 q l m -> Forall2 q' l' m' -> (forall a b c d, r a b -> q a c -> q' b d -> In c m -> In d m' -> r2 c d) -> listed r2 P m m'.
Proof.
  intros [HP H] F F' Hi. split; [now rewrite <- (F2_len _ _ _ F)|]. clear HP. revert m' F' Hi. induction H as [|i b P l' (a & Ea & Hr) H IH]; intros m' F' Hi; inversion F'; subst; constructor.
  - destruct (F2_nth _ _ _ _ _ F Ea) as (c & Ec & Hq). exists c. split; [exact Ec|]. eapply Hi; eauto; [exact (nth_error_In _ _ Ec)|cbn; auto].
  - apply IH; auto. intros. eapply Hi; eauto. cbn. auto.
Qed.
Lemma perm_sum {A} (f : A -> nat) l m : Permutation l m -> list_sum (map f m) = list_sum (map f l).
Proof.
  assert (C : forall a (k : list A), list_sum (map f (a :: k)) = (f a + list_sum (map f k))%nat) by reflexivity.
  induction 1; rewrite ?C; lia.
Qed.
Lemma listed_sum {A B} (r : A -> B -> Prop) (f : A -> nat) (g : B -> nat) P l l' : listed r P l l' -> (forall a b, r a b -> g b = f a) -> list_sum (map g l') = list_sum (map f l).
Proof.
  intros H Hi. apply perm_listed in H. destruct H as (l2 & HP & HF). transitivity (list_sum (map f l2)); [|now apply perm_sum].
  clear HP. induction HF as [|a b l2 l' Hr HF IH]; [reflexivity|]. cbn [map]. change (g b + list_sum (map g l') = f a + list_sum (map f l2))%nat. rewrite (Hi _ _ Hr), IH. reflexivity.
Qed.
Lemma map_const {A} (l : list A) (k : nat) : map (fun _ => k) l = repeat k (length l).
Proof. induction l; cbn; congruence. Qed.
Lemma listed_cat3 th sg us us' : listed (fun u u' => u' = turn_vel th u) sg us us' -> cat3 us' = fu th sg (cat3 us).
Proof.
  intros H. pose proof (listed_len _ _ _ _ H) as [L1 L2]. apply (fu_ext th (length us)); [apply H|rewrite cat3_length; lia|].
  intros k i Ek. destruct (listed_k _ _ _ _ _ _ H Ek) as (u & u' & Eu & Eu' & ->). rewrite (v3_at_cat3 _ _ (turn_vel th u)), (v3_at_cat3 _ _ u) by (apply nth_error_Some; congruence).
  rewrite (nth_error_nth _ _ _ Eu'), (nth_error_nth _ _ _ Eu). reflexivity.
Qed.
Lemma alike_bind {A B C D} (r : A -> B -> Prop) (r2 : C -> D -> Prop) m m' f f' : alike r m m' -> (forall a b, m = Ok a -> m' = Ok b -> r a b -> alike r2 (f a) (f' b)) -> alike r2 (bind m f) (bind m' f').
Proof. destruct m, m'; cbn; try tauto. intros H G. now apply G. Qed.
Lemma alike_impl {A B} (r r2 : A -> B -> Prop) m m' : (forall a b, m = Ok a -> m' = Ok b -> r a b -> r2 a b) -> alike r m m' -> alike r2 m m'.
Proof. destruct m, m'; cbn; auto. Qed.

(** *** constraints, as they were built *)
Definition arm (j : joint R) : v2 R := polar_to_cart (j_r1 j) (j_rot1 j).
Definition jrel (th : view) (sg : list nat) (e e' : jent) : Prop :=
  let '(j, i1, i2) := e in let '(j', k1, k2) := e' in
  j_kind j' = j_kind j /\ j_b1 j' = v_name th (j_b1 j) /\ j_b2 j' = option_map (v_name th) (j_b2 j) /\ j_r1 j' = j_r1 j /\
  match j_kind j with JJoint | JTotal => arm j' = place th (arm j) | JX | JY => sin (v_angle th) = 0 | _ => True end /\
  nth_error sg k1 = Some i1 /\ match i2, k2 with None, None => True | Some i, Some k => nth_error sg k = Some i | _, _ => False end.
(** the same constraints in use *)
Definition erel (th : view) (sg : list nat) (e e' : jent) : Prop :=
  let '(j, i1, i2) := e in let '(j', k1, k2) := e' in
  turned_joint th j j' /\ match j_kind j with JX | JY => sin (v_angle th) = 0 | _ => True end /\
  nth_error sg k1 = Some i1 /\ match i2, k2 with None, None => True | Some i, Some k => nth_error sg k = Some i | _, _ => False end.
Definition ekind (e : jent) : jkind := j_kind (fst (fst e)).
Lemma tw_v2l th a : tw th (v2l a) = v2l (place th a).
Proof. destruct a. reflexivity. Qed.
Lemma tv_v3 th (u : v3 R) : tv th [fst u; fst (snd u); snd (snd u)] = [fst (turn_vel th u); fst (snd (turn_vel th u)); snd (snd (turn_vel th u))].
Proof. destruct u as [w [x y]]. reflexivity. Qed.

Section Two.
Variables (la : lapack R) (mi : nat) (th : view) (sg pi : list nat).
Hypothesis HL : lapack_ok la.
Variables (bs bs' : list (body R)) (js js' : list (joint R)) (J0 J0' : list jent).
Hypothesis HBB : listed (brel th) sg bs bs'.
Hypothesis HJ0 : listed (jrel th sg) pi J0 J0'.
(** what else is assumed of the two worlds *)
Variable SC : world R -> world R -> Prop.
Record related (w w' : world R) : Prop := {
  re_s : sound bs js J0 w;
  re_s' : sound bs' js' J0' w';
  re_v : valid la w;
  re_v' : valid la w';
  re_b : listed (brel th) sg (w_bodies w) (w_bodies w');
  re_c : exists P, listed (crel th sg) P (w_contacts w) (w_contacts w');
  re_t : w_t w' = w_t w;
  re_dt : w_dt w' = w_dt w;
  re_eps : w_eps w' = w_eps w;
  re_tol : w_tol w' = w_tol w;
  re_fd : w_fric_dirs w' = w_fric_dirs w;
  re_ps : w_post_stab w' = w_post_stab w;
  re_st : w_strict w' = w_strict w;
  re_h : Forall2 (turned_force th) (w_heap w) (w_heap w');
  re_sc : SC w w' }.

Section World.
Variables (w w' : world R).
Hypothesis HR : related w w'.
Notation n := (3 * length (w_bodies w))%nat.
Notation neq := (w_num_constraints w).
Notation nc := (length (w_contacts w)).
Notation fu := (fu th sg).
Lemma tw_len : length (w_bodies w') = length (w_bodies w).
Proof. apply (listed_len _ _ _ _ (re_b _ _ HR)). Qed.
Lemma tw_ord : ordering (length (w_bodies w)) sg.
Proof. apply (re_b _ _ HR). Qed.
Lemma tw_iu : isometry n fu.
Proof. apply fu_iso, tw_ord. Qed.
Lemma tw_nc : length (w_contacts w') = nc.
Proof. destruct (re_c _ _ HR) as [P H]. apply (listed_len _ _ _ _ H). Qed.
Lemma tw_joints : listed (erel th sg) pi (w_joints w) (w_joints w').
Proof.
  destruct (so_found _ _ _ _ (re_s _ _ HR)) as (_ & _ & _ & [_ F] & _). destruct (so_found _ _ _ _ (re_s' _ _ HR)) as (_ & _ & _ & [_ F'] & _).
  refine (listed_F2 _ _ _ _ _ _ _ _ _ HJ0 F F' _). intros [[j0 i1] i2] [[j0' k1] k2] [[j a1] a2] [[j' c1] c2] (K & B1 & B2 & R1 & A & S1 & S2) (-> & -> & x1 & y1 & y2 & X1 & Y & Jk) (-> & -> & x1' & y1' & y2' & X1' & Y' & Jk') _ _.
  apply joint_bodies_Ok in Y, Y'. destruct Y as [Y1 _], Y' as [Y1' _].
  destruct (listed_k _ _ _ _ _ _ HBB S1) as (z & z' & Ez & Ez' & Hz). rewrite X1 in Ez. injection Ez as <-. rewrite X1' in Ez'. injection Ez' as <-. rewrite Hz in *. clear Hz x1'.
  destruct (listed_k _ _ _ _ _ _ (re_b _ _ HR) S1) as (z & z' & Ez & Ez' & Hz). rewrite Y1 in Ez. injection Ez as <-. rewrite Y1' in Ez'. injection Ez' as <-. rewrite Hz in *. clear Hz y1'.
  destruct Jk as (K1 & K2 & K3 & K4 & K5), Jk' as (L1 & L2 & L3 & L4 & L5). unfold erel. split; [|split; [|split; auto]].
  - unfold turned_joint. split; [congruence|]. split; [congruence|]. split; [congruence|]. rewrite K in L5. unfold b_rot, b_pos in *. cbn [turn_body b_p turn_pose fst snd] in *.
    destruct (j_kind j0).
    + destruct K5 as (Q1 & Q2 & Q3 & _), L5 as (Q1' & Q2' & Q3' & _). rewrite Q3, Q3', Q2, Q2', Q1, Q1', R1. rewrite rt_add. f_equal.
      replace (hand th * fst (b_p y1) + v_rot th - (hand th * fst (b_p x1) + v_rot th)) with (hand th * (fst (b_p y1) - fst (b_p x1))) by ring. unfold arm in A. rewrite R1 in A. rewrite (rt_polar th _ _ _ _ A). f_equal. symmetry. apply polar_rotate.
    + destruct K5 as (Q & _), L5 as (Q' & _). now rewrite Q, Q'.
    + destruct K5 as (Q & _), L5 as (Q' & _). now rewrite Q, Q'.
    + destruct K5 as (Q & _), L5 as (Q' & _). now rewrite Q, Q'.
    + destruct K5 as (Q & _), L5 as (Q' & _). now rewrite Q, Q'.
    + destruct K5 as (Q1 & Q2 & Q3), L5 as (Q1' & Q2' & Q3'). rewrite Q3, Q3', Q2, Q2', Q1, Q1', R1. rewrite rt_add. f_equal.
      replace (hand th * fst (b_p y1) + v_rot th - (hand th * fst (b_p x1) + v_rot th)) with (hand th * (fst (b_p y1) - fst (b_p x1))) by ring. unfold arm in A. rewrite R1 in A. rewrite (rt_polar th _ _ _ _ A). f_equal. symmetry. apply polar_rotate.
  - rewrite K1. destruct (j_kind j0); auto.
Qed.
Lemma num_sum v : world_rows v -> w_num_constraints v = list_sum (map (fun e => j_num (fst (fst e))) (w_joints v)).
Proof. intros [-> _]. induction (w_joints v) as [|e l IH]; [reflexivity|]. cbn [fold_right map]. rewrite IH. reflexivity. Qed.
Lemma tw_neq : w_num_constraints w' = neq.
Proof.
  rewrite (num_sum w (so_rows _ _ _ _ (re_s _ _ HR))), (num_sum w' (so_rows _ _ _ _ (re_s' _ _ HR))). apply (listed_sum _ _ _ _ _ _ tw_joints).
  intros [[j i1] i2] [[j' k1] k2] [(K & _) _]. cbn [fst]. unfold j_num. now rewrite K.
Qed.
Definition fv (y : vec R) : vec R := reorder (expand (map (fun e => j_num (fst (fst e))) (w_joints w)) pi) (diag jn (tj th) (map ekind (w_joints w)) y).
Lemma jn_num e : jn (ekind e) = j_num (fst (fst e)).
Proof. reflexivity. Qed.
Lemma tw_iv : isometry neq fv.
Proof.
  rewrite (num_sum w (so_rows _ _ _ _ (re_s _ _ HR))). unfold fv. apply iso_comp.
  - replace (map (fun e => j_num (fst (fst e))) (w_joints w)) with (map jn (map ekind (w_joints w))) by (rewrite map_map; reflexivity). apply diag_iso. intros k _. apply tj_iso.
  - apply reorder_iso. apply expand_ordering. rewrite map_length. apply tw_joints.
Qed.
Lemma entry_turn x e e' : wf_entry (length (w_bodies w)) e -> erel th sg e e' -> length (entry_vel w x e) = jn (ekind e) /\ entry_vel w' (fu x) e' = tj th (ekind e) (entry_vel w x e).
Proof.
  destruct e as [[j i1] i2], e' as [[j' k1] k2]. intros (H1 & H2 & H3) ((K & _ & _ & Kp) & Kx & S1 & S2). unfold entry_vel, ekind. cbn [fst].
  destruct (listed_k _ _ _ _ _ _ (re_b _ _ HR) S1) as (b1 & b1' & E1 & E1' & ->). rewrite E1, E1', K, Kp, (fu_at th sg x k1 i1 S1). unfold b_pos. cbn [turn_body b_p turn_pose snd].
  destruct (j_kind j) eqn:EK.
  - destruct i2 as [i|], k2 as [k|]; try contradiction.
    + destruct (listed_k _ _ _ _ _ _ (re_b _ _ HR) S2) as (b2 & b2' & E2 & E2' & ->). rewrite E2, E2', (fu_at th sg x k i S2). cbn [turn_body b_p turn_pose snd measured jn tj]. split; [reflexivity|]. rewrite tw_v2l, <- !rt_sub, !rt_point_velocity, rt_sub. reflexivity.
    + cbn [measured jn tj]. split; [reflexivity|]. rewrite tw_v2l, <- rt_sub, rt_point_velocity. reflexivity.
  - destruct i2 as [i|], k2 as [k|]; try contradiction.
    destruct (listed_k _ _ _ _ _ _ (re_b _ _ HR) S2) as (b2 & b2' & E2 & E2' & ->). rewrite E2, E2', (fu_at th sg x k i S2). cbn [turn_body b_p turn_pose snd measured jn tj]. split; [reflexivity|].
    cbn [v2l app firstn skipn]. change [fst ?a; snd ?a] with (v2l a). rewrite <- !rt_sub, !rt_point_velocity, <- rt_sub. fold (v2l (v2sub (point_velocity (v3_at x i1) (v2sub (j_pos j) (snd (b_p b1)))) (point_velocity (v3_at x i) (v2sub (j_pos j) (snd (b_p b2)))))). rewrite tw_v2l. unfold v2l. cbn [app vscale map]. rnum. unfold turn_vel at 1 2. cbn [fst]. rewrite <- Rmult_minus_distr_l. reflexivity.
  - cbn [measured jn tj]. split; [reflexivity|]. unfold turn_vel. cbn [snd fst]. rewrite (rt_axis th _ Kx). reflexivity.
  - cbn [measured jn tj]. split; [reflexivity|]. unfold turn_vel. cbn [snd fst]. rewrite (rt_axis th _ Kx). reflexivity.
  - cbn [measured jn tj]. split; reflexivity.
  - cbn [measured jn tj]. split; [reflexivity|]. now rewrite tv_v3.
Qed.
Lemma tw_Je x : length x = n -> mv (Je w') (fu x) = fv (mv (Je w) x).
Proof.
  intros Hx. rewrite (founded_measures _ _ _ _ x (so_found _ _ _ _ (re_s _ _ HR)) Hx). rewrite (founded_measures _ _ _ _ (fu x) (so_found _ _ _ _ (re_s' _ _ HR))) by (rewrite tw_len; apply (iso_len _ _ tw_iu), Hx).
  destruct (so_rows _ _ _ _ (re_s _ _ HR)) as [_ W]. rewrite Forall_forall in W.
  assert (LE : forall e, In e (w_joints w) -> length (entry_vel w x e) = jn (ekind e)).
  { intros e He. apply In_nth_error in He. destruct He as [i Ei]. destruct (listed_l _ _ _ _ _ _ tw_joints Ei) as (k & e' & _ & _ & R). exact (proj1 (entry_turn x e e' (W e (nth_error_In _ _ Ei)) R)). }
  unfold fv. rewrite (diag_flat jn (tj th) ekind (entry_vel w x)) by exact LE.
  rewrite (listed_flat (erel th sg) (fun e => tj th (ekind e) (entry_vel w x e)) _ pi (w_joints w) (w_joints w') tw_joints).
  - f_equal. f_equal. apply map_ext_in. intros e He. rewrite (iso_len _ _ (tj_iso th (ekind e)) _ (LE e He)). apply jn_num.
  - intros e e' He He' Hr. apply entry_turn; auto.
Qed.
Lemma tw_M x : length x = n -> mv (w_M w') (fu x) = fu (mv (w_M w) x).
Proof.
  intros Hx. rewrite (so_M _ _ _ _ (re_s _ _ HR)), (so_M _ _ _ _ (re_s' _ _ HR)). pose proof (iso_len _ _ tw_iu x Hx) as Lf. apply (fu_ext th (length (w_bodies w))); [apply tw_ord|rewrite mv_length, (wf_length _ _ _ (wf_world_M (w_bodies w'))), tw_len; reflexivity|].
  intros k i Ek. destruct (listed_k _ _ _ _ _ _ (re_b _ _ HR) Ek) as (b & b' & Eb & Eb' & ->).
  rewrite (v3_at_mv_M (w_bodies w') _ _ _ ltac:(rewrite tw_len; exact Lf) Eb'), (v3_at_mv_M (w_bodies w) x i b Hx Eb). rewrite (fu_at th sg x k i Ek). unfold mass3, turn_vel, place, rotate. cbn [turn_body b_inertia b_mass fst snd]. apply f_equal2; [ring|]. destruct (v_mirror th); cbn [fst snd]; apply f_equal2; ring.
Qed.
Lemma tw_v : w_v w' = fu (w_v w).
Proof.
  rewrite (so_v _ _ _ _ (re_s _ _ HR)), (so_v _ _ _ _ (re_s' _ _ HR)). apply listed_cat3. eapply listed_map; [apply (re_b _ _ HR)|]. intros b b' _ _ ->. reflexivity.
Qed.
Lemma fold_turn us us' a : Forall2 (fun u u' => u' = turn_vel th u) us us' -> fold_left v3add us' (turn_vel th a) = turn_vel th (fold_left v3add us a).
Proof. intros H. revert a. induction H as [|u u' us us' -> H IH]; intros a; [reflexivity|]. cbn [fold_left]. rewrite <- turn_vel_add. apply IH. Qed.
Lemma turn_vel_zero : turn_vel th v3zero = v3zero.
Proof. unfold turn_vel, v3zero, v2zero. rnum. cbn [fst snd]. apply f_equal2; [ring|exact (rt_zero th)]. Qed.
Lemma tw_forces t : alike (fun f f' => f' = fu f) (world_apply_forces w t) (world_apply_forces w' t).
Proof.
  unfold world_apply_forces. eapply alike_bind.
  - eapply (listed_mapM (brel th) (fun u u' => u' = turn_vel th u)); [apply (re_b _ _ HR)|]. intros b b' _ _ ->. unfold body_apply_forces. cbn [turn_body b_forces].
    eapply alike_bind.
    + eapply (mapM_alike eq (fun u u' => u' = turn_vel th u)); [|clear; induction (b_forces b); constructor; auto]. intros id ? <-. pose proof (re_h _ _ HR) as Hh. destruct (nth_error (w_heap w) id) as [f|] eqn:Ef.
      * destruct (F2_nth _ _ _ _ _ Hh Ef) as (f' & -> & Hf). apply Hf.
      * assert (En : nth_error (w_heap w') id = None) by (apply nth_error_None in Ef; apply nth_error_None; rewrite <- (F2_len _ _ _ Hh); exact Ef). rewrite En. exact I.
    + intros us us' _ _ H. cbn [alike]. rewrite <- turn_vel_zero at 1. now apply fold_turn.
  - intros us us' _ _ H. cbn [alike]. now apply listed_cat3.
Qed.
End World.
End Two.
