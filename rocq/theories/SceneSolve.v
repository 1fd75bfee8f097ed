(** solve_dynamics and post_stabilization for two descriptions of the same scene *)
From Coq Require Import List Arith ZArith Bool Reals Lia Lra Permutation.
From Verif Require Import Num Tensor Utils Bodies Forces Constraints Contacts World Lapack Pdipm Lcp Engines Spec GeoSpec BodySpec JointSpec ContactSpec EngineSpec SymSpec SceneSpec
     RBase ResFacts LinAlg LapackSpec KktSpec PdipmSpec WorldFacts HandlerFacts LayoutFacts HistFacts SysFacts RewindFacts JointFacts JeFacts CacheFacts BodyReach PdipmFacts PdipmLoop SolverFacts EngineFacts
     ContactSys EngineBalance LcpSym PlaneFacts BodyFacts GeomFacts ContactFacts ListedFacts SceneFacts SceneContacts SceneEngine.
Import ListNotations.
Open Scope R_scope.

(** *** the inequalities, three groups of them, in the order of the contacts *)
Definition P2 (k : nat) (P : list nat) : list nat := expand (repeat 2%nat k) P.
(** the two directions of friction change places in a mirror *)
Definition other (i : nat) : nat := if Nat.even i then S i else pred i.
Definition P2' (m : bool) (k : nat) (P : list nat) : list nat := if m then map other (P2 k P) else P2 k P.
Definition PP (m : bool) (k : nat) (P : list nat) : list nat := P ++ map (Nat.add k) (P2' m k P) ++ map (Nat.add (k + 2 * k)) P.
Lemma map_add_seq k a n : map (Nat.add k) (seq a n) = seq (k + a) n.
Proof. revert a. induction n as [|n IH]; intros a; [reflexivity|]. cbn [seq map]. rewrite IH. f_equal. f_equal. lia. Qed.
Lemma sum_repeat a k : list_sum (repeat a k) = (a * k)%nat.
Proof. induction k as [|k IH]; [cbn; lia|]. cbn [repeat]. change (list_sum (a :: repeat a k)) with (a + list_sum (repeat a k))%nat. rewrite IH. lia. Qed.
Lemma P2_ord k P : ordering k P -> ordering (2 * k) (P2 k P).
Proof. intros H. unfold P2. rewrite <- (sum_repeat 2 k). apply expand_ordering. now rewrite repeat_length. Qed.
Lemma other_step i : other (S (S i)) = S (S (other i)).
Proof. unfold other. cbn [Nat.even]. destruct (Nat.even i) eqn:E; [reflexivity|]. destruct i; [discriminate|]. reflexivity. Qed.
Lemma other_even i : other (2 * i) = (2 * i + 1)%nat /\ other (2 * i + 1) = (2 * i)%nat.
Proof.
  induction i as [|i [IH1 IH2]]; [split; reflexivity|]. replace (2 * S i)%nat with (S (S (2 * i))) by lia. replace (S (S (2 * i)) + 1)%nat with (S (S (2 * i + 1))) by lia. rewrite !other_step, IH1, IH2. lia.
Qed.
Lemma other_seq a k : Permutation (map other (seq (2 * a) (2 * k))) (seq (2 * a) (2 * k)).
Proof.
  revert a. induction k as [|k IH]; intros a; [constructor|]. replace (2 * S k)%nat with (S (S (2 * k))) by lia. cbn [seq map]. replace (S (2 * a)) with (2 * a + 1)%nat by lia. destruct (other_even a) as [-> ->].
  replace (S (2 * a + 1)) with (2 * S a)%nat by lia. rewrite IH. apply perm_swap.
Qed.
Lemma P2'_ord m k P : ordering k P -> ordering (2 * k) (P2' m k P).
Proof.
  intros H. pose proof (P2_ord k P H) as H2. destruct m; [|exact H2]. unfold ordering in *. cbn [P2']. rewrite (Permutation_map other H2). apply (other_seq 0 k).
Qed.
Lemma PP_ord m k P : ordering k P -> ordering (k + 2 * k + k) (PP m k P).
Proof.
  intros H. unfold ordering, PP. rewrite !seq_app, <- app_assoc. cbn [Nat.add]. pose proof (P2'_ord m k P H) as H2.
  apply Permutation_app; [exact H|]. apply Permutation_app.
  - pose proof (map_add_seq k 0 (2 * k)) as E. rewrite Nat.add_0_r in E. rewrite <- E. now apply Permutation_map.
  - pose proof (map_add_seq (k + 2 * k) 0 k) as E. rewrite Nat.add_0_r in E. rewrite <- E. now apply Permutation_map.
Qed.
Lemma reorder_PP m k P a b g : ordering k P -> length a = k -> length b = (2 * k)%nat -> length g = k ->
  reorder (PP m k P) (a ++ b ++ g) = reorder P a ++ reorder (P2' m k P) b ++ reorder P g.
Proof.
  intros H La Lb Lg. unfold reorder, PP. rewrite !map_app, !map_map. f_equal; [|f_equal]; apply map_ext_in; intros i Hi.
  - apply (ord_lt _ _ H) in Hi. rewrite vget_app. destruct (Nat.ltb_spec i (length a)); [reflexivity|lia].
  - apply (ord_lt _ _ (P2'_ord m _ _ H)) in Hi. rewrite vget_app. destruct (Nat.ltb_spec (k + i) (length a)); [lia|]. rewrite vget_app. replace (k + i - length a)%nat with i by lia. destruct (Nat.ltb_spec i (length b)); [reflexivity|lia].
  - rewrite vget_app. destruct (Nat.ltb_spec (k + 2 * k + i) (length a)); [lia|]. rewrite vget_app. destruct (Nat.ltb_spec (k + 2 * k + i - length a) (length b)); [lia|]. f_equal. lia.
Qed.
Lemma listed_pick {A} (l : list A) P d : ordering (length l) P -> listed eq P l (map (fun i => nth i l d) P).
Proof.
  intros H. split; [exact H|]. assert (G : forall i, In i P -> (i < length l)%nat) by (intros i; apply (ord_lt _ _ H)). clear H. induction P as [|i P IH]; cbn [map]; constructor.
  - exists (nth i l d). split; [apply nth_error_nth'; apply G; cbn; auto|reflexivity].
  - apply IH. intros; apply G; cbn; auto.
Qed.
Lemma pairs_of k (b : vec R) : length b = (2 * k)%nat -> exists ps : list (R * R), length ps = k /\ b = flat_map (fun p => [fst p; snd p]) ps.
Proof.
  revert b. induction k as [|k IH]; intros b Hb; [destruct b; [exists []; auto|cbn in Hb; lia]|]. destruct b as [|x [|y b]]; cbn in Hb; try lia.
  destruct (IH b) as (ps & L & ->); [lia|]. exists ((x, y) :: ps). cbn. split; [congruence|reflexivity].
Qed.
Lemma other_get (ps : list (R * R)) i : (i < 2 * length ps)%nat -> vget (flat_map (fun p => [fst p; snd p]) ps) (other i) = vget (flat_map (fun p => [snd p; fst p]) ps) i.
Proof.
  revert i. induction ps as [|p ps IH]; intros i Hi; [cbn in Hi; lia|]. destruct i as [|[|i]]; [reflexivity|reflexivity|]. rewrite other_step. cbn [flat_map app]. unfold vget in *. cbn [nth]. apply IH. cbn [length] in Hi. lia.
Qed.
(** pairs, seen in another order *)
Lemma reorder_pairs m k P (ps : list (R * R)) : ordering k P -> length ps = k ->
  reorder (P2' m k P) (flat_map (fun p => [fst p; snd p]) ps) = reorder (P2 k P) (flat_map (fun p => if m then [snd p; fst p] else [fst p; snd p]) ps).
Proof.
  intros H L. destruct m; [|reflexivity]. unfold reorder, P2'. rewrite map_map. apply map_ext_in. intros i Hi. apply (ord_lt _ _ (P2_ord _ _ H)) in Hi. apply other_get. lia.
Qed.
Lemma reorder_flat {A} k P (f : A -> list R) (l : list A) d : ordering k P -> length l = k -> (forall a, length (f a) = 2%nat) -> reorder (P2 k P) (flat_map f l) = flat_map f (map (fun i => nth i l d) P).
Proof.
  intros H L Hf. rewrite (listed_flat eq f f P l (map (fun i => nth i l d) P)); [|apply listed_pick; now rewrite L|intros; congruence].
  unfold P2. do 2 f_equal. rewrite <- L. rewrite <- (map_const l 2). apply map_ext. intros a. now rewrite Hf.
Qed.
Lemma twice_reorder m k P g : ordering k P -> length g = k -> twice (reorder P g) = reorder (P2' m k P) (twice g).
Proof.
  intros H L. assert (E : twice g = flat_map (fun p : R * R => [fst p; snd p]) (map (fun a => (a, a)) g)) by (unfold twice; rewrite !flat_map_concat_map, map_map; reflexivity).
  assert (E2 : flat_map (fun p : R * R => if m then [snd p; fst p] else [fst p; snd p]) (map (fun a => (a, a)) g) = twice g) by (unfold twice; rewrite !flat_map_concat_map, map_map; f_equal; apply map_ext; intros a; destruct m; reflexivity).
  rewrite E, reorder_pairs, E2 by (rewrite ?map_length; auto). unfold twice. rewrite (reorder_flat k P _ g 0); auto. 
Qed.
Lemma sums_pairs ps : pair_sums (flat_map (fun p : R * R => [fst p; snd p]) ps) = map (fun p => fst p + snd p) ps.
Proof. induction ps as [|p ps IH]; [reflexivity|]. cbn. now rewrite IH. Qed.
Lemma sums_reorder m k P b : ordering k P -> length b = (2 * k)%nat -> pair_sums (reorder (P2' m k P) b) = reorder P (pair_sums b).
Proof.
  intros H Lb. destruct (pairs_of k b Lb) as (ps & L & ->). rewrite reorder_pairs by auto. rewrite (reorder_flat k P _ ps (0, 0) H L) by (intros; destruct m; reflexivity). set (ps' := map (fun i => nth i ps (0, 0)) P).
  assert (E : flat_map (fun p : R * R => if m then [snd p; fst p] else [fst p; snd p]) ps' = flat_map (fun p : R * R => [fst p; snd p]) (map (fun p => if m then (snd p, fst p) else p) ps')) by (rewrite !flat_map_concat_map, map_map; f_equal; apply map_ext; intros p; destruct m; reflexivity).
  rewrite E, !sums_pairs, map_map. unfold ps'. rewrite map_map. unfold reorder. apply map_ext_in. intros i Hi. apply (ord_lt _ _ H) in Hi. unfold vget.
  rewrite (nth_indep _ 0 ((fun p : R * R => fst p + snd p) (0, 0))) by (rewrite map_length; lia). rewrite (map_nth (fun p : R * R => fst p + snd p)). destruct m; [|reflexivity]. cbn [fst snd]. apply Rplus_comm.
Qed.
Lemma iso_pair n m f g : isometry n f -> isometry m g -> isometry (n + m) (fun x => f (firstn n x) ++ g (skipn n x)).
Proof.
  intros [F1 F2 F3 F4 F5] [G1 G2 G3 G4 G5].
  assert (LF : forall x : vec R, length x = (n + m)%nat -> length (firstn n x) = n) by (intros; rewrite firstn_length; lia).
  assert (LS : forall x : vec R, length x = (n + m)%nat -> length (skipn n x) = m) by (intros; rewrite skipn_length; lia).
  constructor; intros.
  - rewrite app_length, F1, G1; auto.
  - rewrite firstn_vadd, skipn_vadd, F2, G2 by auto. symmetry. apply vadd_app. rewrite !F1; auto.
  - unfold vscale at 1 2. rewrite firstn_map, skipn_map. fold (vscale k (firstn n x)). fold (vscale k (skipn n x)). rewrite F3, G3 by auto. symmetry. apply vscale_app.
  - rewrite dot_app by (rewrite !F1; auto). rewrite F4, G4 by auto. rewrite <- dot_app by (rewrite !LF; auto). now rewrite !firstn_skipn.
  - destruct (F5 (firstn n y)) as (x1 & L1 & E1); [auto|]. destruct (G5 (skipn n y)) as (x2 & L2 & E2); [auto|]. exists (x1 ++ x2). split; [rewrite app_length; lia|].
    rewrite firstn_app, skipn_app, L1, Nat.sub_diag. cbn [firstn skipn]. rewrite app_nil_r, firstn_all2, skipn_all2 by lia. cbn [app]. rewrite E1, E2. apply firstn_skipn.
Qed.
(** systems that correspond have both an inverse or none, and the solutions correspond *)
Lemma inv_alike la n f (A A' : matR) : lapack_ok la -> isometry n f -> wf n n A -> wf n n A' -> (forall x, length x = n -> mv A' (f x) = f (mv A x)) ->
  alike (fun B B' => forall u, length u = n -> mv B' (f u) = f (mv B u)) (la_inv la A) (la_inv la A').
Proof.
  intros HL Hf W W' HA.
  assert (N : nonsingular n A <-> nonsingular n A').
  { split; intros HN x Hx E.
    - destruct (iso_onto _ _ Hf x Hx) as (y & Ly & <-). rewrite HA in E by auto. apply (iso_zero_inv n f Hf) in E; [|rewrite mv_length; apply W]. rewrite (HN y Ly E). apply (iso_zeros n f Hf).
    - assert (E2 : f x = vzeros n) by (apply HN; [now apply (iso_len _ _ Hf)|rewrite HA, E by auto; apply (iso_zeros n f Hf)]). exact (iso_zero_inv n f Hf x Hx E2). }
  assert (NI : forall A B, wf n n A -> la_inv la A = Ok B -> nonsingular n A).
  { clear - HL. intros A B W E x Hx Ex. destruct (inv_ok _ HL _ _ _ W E) as [WB H]. destruct (H x Hx) as [_ <-]. rewrite Ex, mv_zeros. f_equal. apply WB. }
  destruct (la_inv la A) as [B|e] eqn:E, (la_inv la A') as [B'|e'] eqn:E'; cbn [alike]; auto.
  - intros u Hu. destruct (inv_ok _ HL _ _ _ W E) as [WB H]. destruct (inv_ok _ HL _ _ _ W' E') as [_ H']. destruct (H u Hu) as [Eu _].
    assert (Lb : length (mv B u) = n) by (rewrite mv_length; apply WB). rewrite <- Eu at 1. rewrite <- HA by exact Lb. apply H'. now apply (iso_len _ _ Hf).
  - apply NI in E; [|exact W]. apply N in E. destruct (inv_total _ HL _ _ W' E) as [B2 ?]. congruence.
  - apply NI in E'; [|exact W']. apply N in E'. destruct (inv_total _ HL _ _ W E') as [B2 ?]. congruence.
Qed.

Lemma bind_bind {A B C} (m : res A) (f : A -> res B) (g : B -> res C) : bind (bind m f) g = bind m (fun a => bind (f a) g).
Proof. now destruct m. Qed.

Lemma cached la (v : world R) : valid la v -> match w_cache v with None => do inv <- la_inv la (sys v); Ok (inv, if w_static_inverse v then Some inv else None) | Some inv => Ok (inv, Some inv) end =
  do inv <- la_inv la (sys v); Ok (inv, if w_static_inverse v then Some inv else None).
Proof. intros [_ V]. destruct (w_cache v) as [i|] eqn:E; [|reflexivity]. destruct (V i eq_refl) as [-> ->]. reflexivity. Qed.
Lemma cached2 la (v : world R) : valid la v -> match w_cache v with None => la_inv la (sys v) | Some inv => Ok inv end = la_inv la (sys v).
Proof. intros [_ V]. destruct (w_cache v) as [i|] eqn:E; [|reflexivity]. now destruct (V i eq_refl) as [_ ->]. Qed.
Lemma rhs_if (v : world R) (u : vecR) : (if Nat.ltb 0 (w_num_constraints v) then u ++ vzeros (w_num_constraints v) else u) = u ++ vzeros (w_num_constraints v).
Proof. destruct (Nat.ltb_spec 0 (w_num_constraints v)); [reflexivity|]. replace (w_num_constraints v) with 0%nat by lia. cbn. now rewrite app_nil_r. Qed.
Lemma problem_of v bs0 js0 J00 dt f : sound bs0 js0 J00 v -> w_contacts v <> [] -> length f = (3 * length (w_bodies v))%nat ->
  contact_problem v (step_rhs v dt f ++ vzeros (w_num_constraints v)) = if Nat.eqb (w_fric_dirs v) 2 then Ok (step_prob v dt f) else Err EShape.
Proof.
  intros HSv Hc Lf. unfold contact_problem, Jf. destruct (w_contacts v) as [|c0 cs] eqn:EC; [congruence|]. rewrite <- EC in *. clear EC. destruct (Nat.eqb_spec (w_fric_dirs v) 2) as [E2|]; [|reflexivity]. cbn [bind]. f_equal.
  unfold step_prob, world_E, mu. rewrite E2. f_equal. pose proof (step_rhs_length _ _ _ _ HSv dt f Lf) as L. rewrite firstn_app, L, Nat.sub_diag, firstn_O, app_nil_r. apply firstn_all2. lia.
Qed.
Lemma fs_app th sg pi w x y : length x = (3 * length (w_bodies w))%nat ->
  fu th sg (firstn (3 * length (w_bodies w)) (x ++ y)) ++ fv th pi w (skipn (3 * length (w_bodies w)) (x ++ y)) = fu th sg x ++ fv th pi w y.
Proof. intros Hx. rewrite firstn_app, skipn_app, Hx, Nat.sub_diag. cbn [firstn skipn]. rewrite app_nil_r, firstn_all2, skipn_all2 by lia. reflexivity. Qed.

Section Two.
Variables (la : lapack R) (mi : nat) (th : view) (sg pi : list nat).
Hypothesis HL : lapack_ok la.
Variables (bs bs' : list (body R)) (js js' : list (joint R)) (J0 J0' : list jent).
Hypothesis HBB : listed (brel th) sg bs bs'.
Hypothesis HJ0 : listed (jrel th sg) pi J0 J0'.
Variable SC : world R -> world R -> Prop.
Notation related := (related la th sg bs bs' js js' J0 J0' SC).
Section World.
Variables (w w' : world R).
Hypothesis HR : related w w'.
Notation n := (3 * length (w_bodies w))%nat.
Notation neq := (w_num_constraints w).
Notation nc := (length (w_contacts w)).
Notation fu := (fu th sg).
Notation fv := (fv th pi w).
Let S := re_s _ _ _ _ _ _ _ _ _ _ _ _ HR.
Let S' := re_s' _ _ _ _ _ _ _ _ _ _ _ _ HR.
Let Iu : isometry n fu := tw_iu _ _ _ _ _ _ _ _ _ _ _ _ HR.
Let Iv : isometry neq fv := tw_iv _ _ _ _ _ _ _ _ _ _ HBB HJ0 _ _ _ HR.
Let Ln : length (w_bodies w') = length (w_bodies w) := tw_len _ _ _ _ _ _ _ _ _ _ _ _ HR.
Let Lc : length (w_contacts w') = nc := tw_nc _ _ _ _ _ _ _ _ _ _ _ _ HR.
Let Le : w_num_constraints w' = neq := tw_neq _ _ _ _ _ _ _ _ _ _ HBB HJ0 _ _ _ HR.

Lemma crel_velocity x c c' : crel th sg c c' -> relative_velocity (fu x) c' = place th (relative_velocity x c) /\ c_normal c' = place th (c_normal c) \/
  relative_velocity (fu x) c' = v2opp (place th (relative_velocity x c)) /\ c_normal c' = v2opp (place th (c_normal c)).
Proof.
  intros [(E1 & E2 & E3 & _ & I1 & I2)|(E1 & E2 & E3 & _ & I1 & I2)]; [left|right]; unfold relative_velocity; rewrite (fu_at th sg x _ _ I1), (fu_at th sg x _ _ I2), E1, E2, E3; cbn [mirror c_normal c_p1 c_p2 c_i1 c_i2]; rewrite !rt_point_velocity.
  - now rewrite rt_sub.
  - rewrite rt_opp, rt_sub. split; [|reflexivity]. unfold v2sub, v2opp. rnum. cbn [fst snd]. apply f_equal2; ring.
Qed.
Lemma comp_opp a b : component (v2opp a) (v2opp b) = component a b.
Proof. unfold component, v2opp. rnum. cbn [fst snd]. ring. Qed.
Lemma tang_opp a : tangent (v2opp a) = v2opp (tangent a).
Proof. unfold tangent, v2opp. rnum. cbn [fst snd]. apply f_equal2; ring. Qed.
Lemma tw_normal x c c' : crel th sg c c' -> component (c_normal c') (relative_velocity (fu x) c') = component (c_normal c) (relative_velocity x c).
Proof. intros H. destruct (crel_velocity x c c' H) as [[-> ->]|[-> ->]]; rewrite ?comp_opp; apply rt_component. Qed.
Lemma comp_scale k a b : component (v2scale k a) b = k * component a b.
Proof. unfold component, v2scale. rnum. cbn [fst snd]. ring. Qed.
Lemma tw_slip x c c' : crel th sg c c' -> component (tangent (c_normal c')) (relative_velocity (fu x) c') = hand th * component (tangent (c_normal c)) (relative_velocity x c).
Proof. intros H. destruct (crel_velocity x c c' H) as [[-> ->]|[-> ->]]; rewrite ?tang_opp, ?comp_opp, rt_tangent, comp_scale, rt_component; reflexivity. Qed.
Variable P : list nat.
Hypothesis HC : listed (crel th sg) P (w_contacts w) (w_contacts w').
Let HP : ordering nc P := proj1 HC.
Lemma tw_Jc x : length x = n -> mv (Jc w') (fu x) = reorder P (mv (Jc w) x).
Proof.
  intros Hx. rewrite (mv_Jc w x (so_range _ _ _ _ S) Hx), (mv_Jc w' (fu x) (so_range _ _ _ _ S')) by (rewrite Ln; now apply (iso_len _ _ Iu)).
  apply (listed_vec (crel th sg) _ _ P _ _ HC). intros c c' _ _. apply tw_normal.
Qed.
Notation vm := (v_mirror th).
Lemma tw_jf x : length x = n -> mv (jf_all w') (fu x) = reorder (P2' vm nc P) (mv (jf_all w) x).
Proof.
  intros Hx. rewrite (mv_jf w x (so_range _ _ _ _ S) Hx), (mv_jf w' (fu x) (so_range _ _ _ _ S')) by (rewrite Ln; now apply (iso_len _ _ Iu)).
  set (sl := fun c => component (tangent (c_normal c)) (relative_velocity x c)). set (ps := map (fun c => (sl c, - sl c)) (w_contacts w)).
  assert (E : flat_map (fun c => [sl c; - sl c]) (w_contacts w) = flat_map (fun p => [fst p; snd p]) ps) by (unfold ps; rewrite !flat_map_concat_map, map_map; reflexivity).
  etransitivity; [|symmetry; etransitivity; [exact (f_equal _ E)|apply reorder_pairs; [exact HP|apply map_length]]].
  assert (E2 : flat_map (fun p => if vm then [snd p; fst p] else [fst p; snd p]) ps = flat_map (fun c => if vm then [- sl c; sl c] else [sl c; - sl c]) (w_contacts w)) by (unfold ps; rewrite !flat_map_concat_map, map_map; reflexivity).
  rewrite E2. rewrite (listed_flat (crel th sg) (fun c => if vm then [- sl c; sl c] else [sl c; - sl c]) _ P _ _ HC).
  - unfold P2. do 2 f_equal. rewrite <- (map_const (w_contacts w) 2). apply map_ext. intros c. now destruct vm.
  - intros c c' _ _ H. rewrite (tw_slip x c c' H). fold (sl c). unfold hand. destruct vm; (apply f_equal2; [|apply f_equal2; [|reflexivity]]); ring.
Qed.
Lemma body_at_turn (f : body R -> R) k i : (forall b, f (turn_body th b) = f b) -> nth_error sg k = Some i -> body_at (w_bodies w') f k = body_at (w_bodies w) f i.
Proof. intros Hf E. destruct (listed_k _ _ _ _ _ _ (re_b _ _ _ _ _ _ _ _ _ _ _ _ HR) E) as (b & b' & Eb & Eb' & ->). unfold body_at. now rewrite Eb, Eb', Hf. Qed.
Lemma tw_rest : restitutions w' = reorder P (restitutions w).
Proof.
  apply (listed_vec (crel th sg) _ _ P _ _ HC). intros c c' _ _ [(_ & _ & _ & _ & I1 & I2)|(_ & _ & _ & _ & I1 & I2)]; rewrite (body_at_turn b_rest _ _ (fun _ => eq_refl) I1), (body_at_turn b_rest _ _ (fun _ => eq_refl) I2); [reflexivity|].
  cbn [mirror c_i1 c_i2]. f_equal. rnum. ring.
Qed.
Lemma tw_mu : mu_vec w' = reorder P (mu_vec w).
Proof.
  apply (listed_vec (crel th sg) _ _ P _ _ HC). intros c c' _ _ [(_ & _ & _ & _ & I1 & I2)|(_ & _ & _ & _ & I1 & I2)]; rewrite (body_at_turn b_fric _ _ (fun _ => eq_refl) I1), (body_at_turn b_fric _ _ (fun _ => eq_refl) I2); [reflexivity|].
  cbn [mirror c_i1 c_i2]. f_equal. rnum. ring.
Qed.
Lemma tw_rhs dt f : length f = n -> step_rhs w' dt (fu f) = fu (step_rhs w dt f).
Proof.
  intros Hf. unfold step_rhs. pose proof (so_vlen _ _ _ _ S) as Lv. rewrite (tw_v _ _ _ _ _ _ _ _ _ _ _ _ HR), (tw_M _ _ _ _ _ _ _ _ _ _ _ _ HR) by exact Lv.
  rewrite (iso_add _ _ Iu), (iso_scale _ _ Iu); auto; [rewrite mv_length; apply (so_symm _ _ _ _ S)|now rewrite vscale_length].
Qed.
Lemma len_mvJc x : length (mv (Jc w) x) = nc.
Proof. rewrite mv_length. unfold Jc. apply map_length. Qed.
Lemma step_transformed dt f : length f = n -> transformed n (nc + 2 * nc + nc) neq fu (PP (v_mirror th) nc P) fv (step_prob w dt f) (step_prob w' dt (fu f)).
Proof.
  intros Hf. unfold step_prob. rewrite Ln, Lc, Le. constructor; cbn [pr_Q pr_p pr_G pr_h pr_A pr_b pr_F].
  - apply (tw_M _ _ _ _ _ _ _ _ _ _ _ _ HR).
  - intros x Hx. unfold lcp_G. rewrite !mv_app, !mv_mzeros. rewrite tw_Jc, tw_jf by auto. rewrite reorder_PP; auto; [|apply len_mvJc|rewrite mv_length; apply (wf_length _ _ _ (wf_jf w (so_range _ _ _ _ S)))|apply vzeros_length].
    f_equal. f_equal. symmetry. apply (reorder_const nc P HP 0).
  - apply (tw_Je _ _ _ _ _ _ _ _ _ _ HBB HJ0 _ _ _ HR).
  - intros z Hz. destruct (split3 z nc Hz) as (l & b & g & -> & Ll & Lb & Lg). rewrite reorder_PP by auto.
    rewrite (mv_F nc (mu_vec w')), (mv_F nc (mu_vec w)); auto; try (rewrite tw_mu); try apply (reorder_length _ _ HP); try apply (reorder_length _ _ (P2'_ord _ _ _ HP)); try apply map_length.
    assert (Lm : length (mu_vec w) = nc) by apply map_length.
    rewrite reorder_PP; auto; [|apply vzeros_length|now rewrite twice_length, Lg|rewrite vsub_length, vmul_length, (pair_sums_length b nc Lb); unfold vec in *; lia].
    rewrite (twice_reorder (v_mirror th) nc) by auto. rewrite (sums_reorder (v_mirror th) nc) by auto. f_equal; [symmetry; apply (reorder_const nc P HP 0)|]. f_equal. unfold vsub, vmul.
    rewrite !(reorder_map2 nc P HP); auto; [rewrite vmap2_length; unfold vec in *; lia|now apply pair_sums_length].
  - now apply tw_rhs.
  - unfold lcp_h. rewrite (tw_v _ _ _ _ _ _ _ _ _ _ _ _ HR), tw_Jc, tw_rest by apply (so_vlen _ _ _ _ S).
    assert (Z : vzeros (2 * nc + nc) = (vzeros (2 * nc) ++ vzeros nc : vecR)) by (unfold vzeros; apply repeat_app). rewrite Z.
    rewrite reorder_PP; auto; try apply vzeros_length; [|unfold vmul; rewrite vmap2_length, len_mvJc, restitutions_length; lia].
    unfold vmul. rewrite (reorder_map2 nc P HP); [|apply len_mvJc|apply restitutions_length]. f_equal. f_equal; symmetry; [apply (reorder_const (2 * nc) (P2' (v_mirror th) nc P) (P2'_ord _ _ _ HP) 0)|apply (reorder_const nc P HP 0)].
  - symmetry. apply (iso_zeros _ _ Iv).
Qed.
End World.
Section Solve.
Variables (w w' : world R).
Hypothesis HR : related w w'.
Notation n := (3 * length (w_bodies w))%nat.
Notation neq := (w_num_constraints w).
Notation nc := (length (w_contacts w)).
Notation fu := (fu th sg).
Notation fv := (fv th pi w).
Notation fs := (fun x : vecR => fu (firstn n x) ++ fv (skipn n x)).
Let HS := re_s _ _ _ _ _ _ _ _ _ _ _ _ HR.
Let HS' := re_s' _ _ _ _ _ _ _ _ _ _ _ _ HR.
Let Iu : isometry n fu := tw_iu _ _ _ _ _ _ _ _ _ _ _ _ HR.
Let Iv : isometry neq fv := tw_iv _ _ _ _ _ _ _ _ _ _ HBB HJ0 _ _ _ HR.
Let Ln : length (w_bodies w') = length (w_bodies w) := tw_len _ _ _ _ _ _ _ _ _ _ _ _ HR.
Let Lc : length (w_contacts w') = nc := tw_nc _ _ _ _ _ _ _ _ _ _ _ _ HR.
Let Le : w_num_constraints w' = neq := tw_neq _ _ _ _ _ _ _ _ _ _ HBB HJ0 _ _ _ HR.
Let Is : isometry (n + neq) fs := iso_pair _ _ _ _ Iu Iv.
Lemma tw_AT y : length y = neq -> vm n (fv y) (Je w') = fu (vm n y (Je w)).
Proof.
  intros Ly. pose proof (so_Je _ _ _ _ HS) as WJ. pose proof (so_Je _ _ _ _ HS') as WJ'. rewrite Ln, Le in WJ'. apply (iso_eq_by_dot n fu Iu); [apply vm_length|apply (iso_len _ _ Iu), vm_length|]. intros x Lx.
  rewrite (iso_dot _ _ Iu) by (auto; apply vm_length). rewrite dot_comm, (dot_vm neq n) by (first [assumption|now apply (iso_len _ _ Iv)|now apply (iso_len _ _ Iu)]).
  rewrite (tw_Je _ _ _ _ _ _ _ _ _ _ HBB HJ0 _ _ _ HR) by auto. rewrite (iso_dot _ _ Iv) by (auto; rewrite mv_length; apply WJ). rewrite (dot_comm x), (dot_vm neq n) by auto. reflexivity.
Qed.
Lemma sys_turn u : length u = (n + neq)%nat -> mv (sys w') (fs u) = fs (mv (sys w) u).
Proof.
  intros Hu. rewrite <- (firstn_skipn n u). assert (Lx : length (firstn n u) = n) by (rewrite firstn_length; lia). assert (Ly : length (skipn n u) = neq) by (rewrite skipn_length; lia).
  set (x := firstn n u) in *. set (y := skipn n u) in *. rewrite fs_app by auto. rewrite (mv_sys _ _ _ _ HS) by auto. rewrite (mv_sys _ _ _ _ HS') by (rewrite ?Ln, ?Le; first [now apply (iso_len _ _ Iu)|now apply (iso_len _ _ Iv)]).
  pose proof (wf_length _ _ _ (proj1 (so_symm _ _ _ _ HS))) as LM.
  rewrite fs_app by (rewrite vsub_length, mv_length, vm_length; lia). rewrite Ln, tw_AT, (tw_M _ _ _ _ _ _ _ _ _ _ _ _ HR), (tw_Je _ _ _ _ _ _ _ _ _ _ HBB HJ0 _ _ _ HR) by auto.
  rewrite (iso_sub n fu Iu); [reflexivity|rewrite mv_length; exact LM|apply vm_length].
Qed.
Lemma inv_turn : alike (fun B B' => forall u, length u = (n + neq)%nat -> mv B' (fs u) = fs (mv B u) /\ length (mv B u) = (n + neq)%nat) (la_inv la (sys w)) (la_inv la (sys w')).
Proof.
  pose proof (wf_sys _ _ _ _ HS) as W. pose proof (wf_sys _ _ _ _ HS') as W'. rewrite Ln, Le in W'. refine (alike_impl _ _ _ _ _ (inv_alike la _ fs _ _ HL Is W W' sys_turn)).
  intros B B' E _ H u Hu. split; [now apply H|]. rewrite mv_length. apply (inv_ok _ HL _ _ _ W E).
Qed.
End Solve.
Section Both.
Variables (w w' : world R).
Hypothesis HR : related w w'.
Notation n := (3 * length (w_bodies w))%nat.
Notation neq := (w_num_constraints w).
Notation nc := (length (w_contacts w)).
Notation fu := (fu th sg).
Notation fv := (fv th pi w).
Notation fs := (fun x : vecR => fu (firstn n x) ++ fv (skipn n x)).
Lemma solve_turn dt : alike (fun r r' => fst r' = fu (fst r)) (solve_dynamics la mi w dt) (solve_dynamics la mi w' dt).
Proof.
  pose proof (re_s _ _ _ _ _ _ _ _ _ _ _ _ HR) as HS. pose proof (re_s' _ _ _ _ _ _ _ _ _ _ _ _ HR) as HS'. pose proof (tw_iu _ _ _ _ _ _ _ _ _ _ _ _ HR) as Iu. pose proof (tw_iv _ _ _ _ _ _ _ _ _ _ HBB HJ0 _ _ _ HR) as Iv.
  pose proof (tw_len _ _ _ _ _ _ _ _ _ _ _ _ HR) as Ln. pose proof (tw_nc _ _ _ _ _ _ _ _ _ _ _ _ HR) as Lc. pose proof (tw_neq _ _ _ _ _ _ _ _ _ _ HBB HJ0 _ _ _ HR) as Le.
  unfold solve_dynamics. cbv zeta. rewrite (re_t _ _ _ _ _ _ _ _ _ _ _ _ HR). eapply alike_bind; [apply (tw_forces _ _ _ _ _ _ _ _ _ _ _ _ HR)|]. intros f f' Ef Ef' ->.
  destruct (apply_forces_layout _ _ _ Ef) as [Lf _]. fold (step_rhs w dt f). fold (step_rhs w' dt (fu f)). rewrite !rhs_if. pose proof (step_rhs_length _ _ _ _ HS dt f Lf) as Lr.
  pose proof (tw_rhs w w' HR dt f Lf) as Er.
  destruct (w_contacts w) as [|c0 cs] eqn:EC.
  - destruct (w_contacts w') as [|c0' cs'] eqn:EC'; [|cbn in Lc; discriminate]. fold (sys w). fold (sys w').
    rewrite (cached la w (re_v _ _ _ _ _ _ _ _ _ _ _ _ HR)), (cached la w' (re_v' _ _ _ _ _ _ _ _ _ _ _ _ HR)). rewrite !bind_bind. eapply alike_bind; [exact (inv_turn w w' HR)|]. intros B B' _ _ H. cbn [bind alike fst].
    rewrite Er, Le, Ln. destruct (H (step_rhs w dt f ++ vzeros neq)) as [H1 H2]; [rewrite app_length, vzeros_length; lia|].
    rewrite (fs_app th sg pi w), (iso_zeros _ _ Iv) in H1 by exact Lr. rewrite H1. assert (LF : length (firstn n (mv B (step_rhs w dt f ++ vzeros neq))) = n) by (rewrite firstn_length; lia).
    rewrite firstn_app, (iso_len _ _ Iu _ LF), Nat.sub_diag, firstn_O, app_nil_r. apply firstn_all2. rewrite (iso_len _ _ Iu _ LF). lia.
  - destruct (w_contacts w') as [|c0' cs'] eqn:EC'; [cbn in Lc; discriminate|]. rewrite <- EC, <- EC' in *.
    assert (N : w_contacts w <> []) by congruence. assert (N' : w_contacts w' <> []) by congruence. clear EC EC'.
    assert (Lf' : length (fu f) = (3 * length (w_bodies w'))%nat) by (rewrite Ln; now apply (iso_len _ _ Iu)).
    rewrite (problem_of w _ _ _ dt f HS N Lf), (problem_of w' _ _ _ dt (fu f) HS' N' Lf'), (re_fd _ _ _ _ _ _ _ _ _ _ _ _ HR). destruct (Nat.eqb_spec (w_fric_dirs w) 2) as [E2|]; [|exact I]. cbn [bind]. rewrite E2.
    destruct (re_c _ _ _ _ _ _ _ _ _ _ _ _ HR) as [P HC]. rewrite Ln, Lc, Le.
    pose proof (step_sized _ _ _ _ HS dt f Lf) as Z. pose proof (step_sized _ _ _ _ HS' dt (fu f) Lf') as Z'. rewrite Ln, Lc, Le in Z'.
    eapply alike_bind; [apply (answers_transformed la HL _ _ _ _ fu (PP (v_mirror th) nc P) fv _ _ Iu Iv (PP_ord _ _ _ (proj1 HC)) (Forall_cons _ Z (Forall_nil _)) (Forall_cons _ Z' (Forall_nil _)) (Forall2_cons _ _ (step_transformed w w' HR P HC dt f Lf) (Forall2_nil _)))|].
    intros r r' Hr Hr' H. destruct r as [[xs sv]|], r' as [[xs' sv']|]; try contradiction; [|exact I]. destruct H as [-> _]. destruct xs as [|x xs]; [exact I|]. cbn [map alike fst]. symmetry. apply (iso_opp n fu Iu).
    assert (Hsz : Forall (sized n (nc + 2 * nc + nc) neq) [step_prob w dt f]) by (constructor; auto).
    assert (H3 : (0 < lo_lim (mkOpts (ncst C_1em12 : R) 3 mi))%nat) by (cbn; lia).
    destruct (forward_best la HL _ _ _ _ _ _ _ Hsz H3 Hr) as (Ex & Lb & _). cbn [length] in Lb.
    destruct (sv_best sv) as [|it [|]] eqn:Eb; try discriminate. injection Ex as -> ->.
    destruct (forward_returned la HL _ _ _ _ _ _ _ Hsz H3 Hr 0 it) as (pr & Ep & P1 & _); [now rewrite Eb|]. apply P1.
Qed.
Lemma post_turn : alike (fun r r' => r' = fu r) (post_stabilization la w) (post_stabilization la w').
Proof.
  pose proof (re_s _ _ _ _ _ _ _ _ _ _ _ _ HR) as HS. pose proof (re_s' _ _ _ _ _ _ _ _ _ _ _ _ HR) as HS'. pose proof (tw_iu _ _ _ _ _ _ _ _ _ _ _ _ HR) as Iu. pose proof (tw_iv _ _ _ _ _ _ _ _ _ _ HBB HJ0 _ _ _ HR) as Iv.
  pose proof (tw_len _ _ _ _ _ _ _ _ _ _ _ _ HR) as Ln. pose proof (tw_nc _ _ _ _ _ _ _ _ _ _ _ _ HR) as Lc. pose proof (tw_neq _ _ _ _ _ _ _ _ _ _ HBB HJ0 _ _ _ HR) as Le.
  unfold post_stabilization. cbv zeta. pose proof (so_vlen _ _ _ _ HS) as Lv. pose proof (wf_length _ _ _ (so_Je _ _ _ _ HS)) as LJ.
  pose proof (tw_Je _ _ _ _ _ _ _ _ _ _ HBB HJ0 _ _ _ HR _ Lv) as EJ. pose proof (tw_v _ _ _ _ _ _ _ _ _ _ _ _ HR) as Ev.
  destruct (w_contacts w) as [|c0 cs] eqn:EC.
  - destruct (w_contacts w') as [|c0' cs'] eqn:EC'; [|cbn in Lc; discriminate]. fold (sys w). fold (sys w').
    rewrite (cached2 la w (re_v _ _ _ _ _ _ _ _ _ _ _ _ HR)), (cached2 la w' (re_v' _ _ _ _ _ _ _ _ _ _ _ _ HR)). eapply alike_bind; [exact (inv_turn w w' HR)|]. intros B B' _ _ H. cbn [alike].
    rewrite Ev, EJ, Ln. destruct (H (vzeros n ++ mv (Je w) (w_v w))) as [H1 H2]; [rewrite app_length, vzeros_length, mv_length; lia|].
    rewrite (fs_app th sg pi w), (iso_zeros _ _ Iu) in H1 by apply vzeros_length. unfold vec in *. rewrite H1. assert (LF : length (firstn n (mv B (vzeros n ++ mv (Je w) (w_v w)))) = n) by (rewrite firstn_length; unfold vec in *; lia).
    rewrite (iso_opp n fu Iu) by exact LF. f_equal. rewrite firstn_app, (iso_len _ _ Iu _ LF), Nat.sub_diag, firstn_O, app_nil_r. apply firstn_all2. rewrite (iso_len _ _ Iu _ LF). lia.
  - destruct (w_contacts w') as [|c0' cs'] eqn:EC'; [cbn in Lc; discriminate|]. rewrite <- EC, <- EC' in *. clear EC EC'.
    destruct (re_c _ _ _ _ _ _ _ _ _ _ _ _ HR) as [P HC]. rewrite Ln, Lc, Le. set (pr := {| pr_Q := w_M w |}). set (pr' := {| pr_Q := w_M w' |}).
    assert (Z : sized n nc neq pr).
    { constructor; unfold pr; cbn [pr_Q pr_p pr_G pr_h pr_A pr_b pr_F].
      - constructor; [apply (so_symm _ _ _ _ HS)|apply wf_Jc, (so_range _ _ _ _ HS)|apply wf_mzeros|apply (so_Je _ _ _ _ HS)].
      - apply vzeros_length.
      - rewrite vadd_length, vmul_length, vopp_length, mv_length, (restitutions_length w). unfold Jc. rewrite map_length. lia.
      - rewrite mv_length. exact LJ. }
    assert (Z' : sized n nc neq pr').
    { rewrite <- Ln, <- Lc, <- Le. constructor; unfold pr'; cbn [pr_Q pr_p pr_G pr_h pr_A pr_b pr_F].
      - constructor; [apply (so_symm _ _ _ _ HS')|apply wf_Jc, (so_range _ _ _ _ HS')|rewrite Lc; apply wf_mzeros|apply (so_Je _ _ _ _ HS')].
      - rewrite Ln. apply vzeros_length.
      - rewrite vadd_length, vmul_length, vopp_length, mv_length, (restitutions_length w'). unfold Jc. rewrite map_length. lia.
      - rewrite mv_length. apply (wf_length _ _ _ (so_Je _ _ _ _ HS')). }
    assert (T : transformed n nc neq fu P fv pr pr').
    { unfold pr, pr'. constructor; cbn [pr_Q pr_p pr_G pr_h pr_A pr_b pr_F].
      - apply (tw_M _ _ _ _ _ _ _ _ _ _ _ _ HR).
      - apply (tw_Jc w w' HR P HC).
      - apply (tw_Je _ _ _ _ _ _ _ _ _ _ HBB HJ0 _ _ _ HR).
      - intros z Hz. rewrite !mv_mzeros. symmetry. apply (reorder_const nc P (proj1 HC) 0).
      - symmetry. apply (iso_zeros _ _ Iu).
      - rewrite Ev, (tw_Jc w w' HR P HC), (tw_rest w w' HR P HC) by exact Lv. pose proof (len_mvJc w (w_v w)) as L1. pose proof (restitutions_length w) as L2. unfold vadd, vmul, vopp.
        rewrite !(reorder_map2 nc P (proj1 HC)); auto; rewrite ?vmap2_length, ?map_length; unfold vec in *; try lia. rewrite (reorder_map nc P (proj1 HC)) by exact L2. reflexivity.
      - now rewrite Ev, EJ. }
    eapply alike_bind; [apply (answers_transformed la HL _ _ _ _ fu P fv _ _ Iu Iv (proj1 HC) (Forall_cons _ Z (Forall_nil _)) (Forall_cons _ Z' (Forall_nil _)) (Forall2_cons _ _ T (Forall2_nil _)))|].
    intros r r' Hr Hr' H. destruct r as [[xs sv]|], r' as [[xs' sv']|]; try contradiction; [|exact I]. destruct H as [-> _]. destruct xs as [|x xs]; [exact I|]. cbn [map alike fst]. symmetry. apply (iso_opp n fu Iu).
    assert (Hsz : Forall (sized n nc neq) [pr]) by (constructor; auto).
    assert (H3 : (0 < lo_lim (default_opts : lcp_opts R))%nat) by (cbn; lia).
    destruct (forward_best la HL _ _ _ _ _ _ _ Hsz H3 Hr) as (Ex & Lb & _). cbn [length] in Lb.
    destruct (sv_best sv) as [|it [|]] eqn:Eb; try discriminate. injection Ex as -> ->.
    destruct (forward_returned la HL _ _ _ _ _ _ _ Hsz H3 Hr 0 it) as (pr0 & Ep & P1 & _); [now rewrite Eb|]. apply P1.
Qed.
End Both.
End Two.
