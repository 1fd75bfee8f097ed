(** Groups of bodies that do not interact with the others *)
From Coq Require Import List Arith ZArith Bool Reals Lra Lia.
From Verif Require Import Num Tensor Utils Bodies Forces Constraints Contacts World Lapack Pdipm Lcp Engines Spec GeoSpec JointSpec EngineSpec WellSpec GroupSpec
     RBase ResFacts LinAlg LapackSpec KktSpec PdipmSpec WorldFacts HandlerFacts LayoutFacts HistFacts SysFacts RewindFacts JointFacts JeFacts
     CacheFacts BodyReach PdipmFacts PdipmLoop SolverFacts EngineFacts ContactSys EngineBalance MomentumFacts PostFacts HeldFacts DriftFacts ContactLaw EnergyFacts EngineProps EngineMore QpFacts WellFacts WellProps SteadyFacts.
Import ListNotations.
Open Scope R_scope.

Notation zero3 := (0, (0, 0)).
(** *** motions of the group alone *)
Definition field (G : nat -> bool) (n : nat) (g : nat -> v3 R) : vecR := cat3 (map (fun i => if G i then g i else zero3) (seq 0 n)).
Lemma field_length G n g : length (field G n g) = (3 * n)%nat.
Proof. unfold field. now rewrite cat3_length, map_length, seq_length. Qed.
Lemma cat3_at (h : nat -> v3 R) n i : (i < n)%nat -> v3_at (cat3 (map h (seq 0 n))) i = h i.
Proof.
  intros H. rewrite (v3_at_cat3 _ _ zero3) by (now rewrite map_length, seq_length). apply nth_error_nth. rewrite nth_error_map.
  rewrite (nth_error_nth' _ 0%nat) by (now rewrite seq_length). cbn. now rewrite seq_nth by exact H.
Qed.
Lemma over_at (x : vecR) n i : length x = (3 * n)%nat -> (n <= i)%nat -> v3_at x i = zero3.
Proof. intros L H. unfold v3_at, vget. rewrite !nth_overflow by lia. reflexivity. Qed.
Lemma field_at G n g i : (i < n)%nat -> v3_at (field G n g) i = if G i then g i else zero3.
Proof. intros H. unfold field. now rewrite cat3_at. Qed.
Lemma field_out G n g i : G i = false -> v3_at (field G n g) i = zero3.
Proof. intros E. destruct (Nat.lt_ge_cases i n) as [H|H]; [now rewrite field_at, E|]. apply (over_at _ n); [apply field_length|exact H]. Qed.

Lemma point_zero (p : v2 R) : point_velocity zero3 p = (0, 0).
Proof. destruct p as [a b]. unfold point_velocity. cbn [fst snd]. rnum. apply f_equal2; ring. Qed.
Lemma relative_zero x c : v3_at x (c_i1 c) = zero3 -> v3_at x (c_i2 c) = zero3 -> relative_velocity x c = (0, 0).
Proof. intros E1 E2. unfold relative_velocity. rewrite E1, E2, !point_zero. unfold v2sub. cbn [fst snd]. rnum. apply f_equal2; ring. Qed.
Lemma entry_zero w x j i1 i2 : v3_at x i1 = zero3 -> (forall i, i2 = Some i -> v3_at x i = zero3) -> Forall (fun a => a = 0) (entry_vel w x (j, i1, i2)).
Proof.
  intros E1 E2. unfold entry_vel. destruct (nth_error (w_bodies w) i1) as [b1|]; [|constructor]. rewrite E1.
  unfold measured. destruct (j_kind j); destruct i2 as [a|]; try (rewrite (E2 a eq_refl)); try destruct (nth_error (w_bodies w) a) as [b2|]; rewrite ?point_zero;
    unfold v2l, v2sub; cbn [fst snd app]; rnum; repeat (apply Forall_cons; [ring|]); apply Forall_nil.
Qed.
Lemma zeros_forall (l : list R) n : Forall (fun a => a = 0) l -> length l = n -> l = vzeros n.
Proof. intros H <-. induction H as [|a l -> H IH]; [reflexivity|]. cbn. now rewrite IH at 1. Qed.
Lemma dot_zero_r (y l : vecR) : Forall (fun a => a = 0) l -> dot y l = 0.
Proof. intros H. revert y. induction H as [|a l -> H IH]; intros y; [apply dot_nil_r|]. destruct y as [|b y]; [apply dot_nil_l|]. rewrite dot_cons, IH. ring. Qed.

(** *** sums over the group are the same in both worlds *)
Lemma Rsum_zero {A} (f : nat -> A -> R) l : forall k, (forall i a, nth_error l i = Some a -> f (k + i)%nat a = 0) -> Rsum (mapi_from k f l) = 0.
Proof.
  induction l as [|a l IH]; intros k H; [reflexivity|]. cbn [mapi_from Rsum fold_right]. unfold Rsum in IH. rewrite IH.
  - pose proof (H 0%nat a eq_refl) as E. rewrite Nat.add_0_r in E. rewrite E. ring.
  - intros i b Hb. specialize (H (S i) b Hb). now rewrite Nat.add_succ_r in H.
Qed.
Lemma group_sum {A} (G : nat -> bool) (l l' : list A) (f f' : nat -> A -> R) : (forall i, G i = true -> nth_error l i = nth_error l' i) ->
  (forall i a, G i = false -> f i a = 0 /\ f' i a = 0) -> (forall i a, nth_error l i = Some a -> G i = true -> f i a = f' i a) -> Rsum (mapi f l) = Rsum (mapi f' l').
Proof.
  intros H Hz He. unfold mapi. assert (Q : forall l l' k, (forall i, G (k + i)%nat = true -> nth_error l i = nth_error l' i) ->
    (forall i a, nth_error l i = Some a -> G (k + i)%nat = true -> f (k + i)%nat a = f' (k + i)%nat a) -> Rsum (mapi_from k f l) = Rsum (mapi_from k f' l')); [|now apply Q].
  clear l l' H He. induction l as [|a l IH]; intros l' k H He.
  - symmetry. apply Rsum_zero. intros i a E. destruct (G (k + i)%nat) eqn:Eg; [|now apply Hz]. rewrite <- (H i Eg) in E. destruct i; discriminate.
  - destruct l' as [|a' l'].
    + apply Rsum_zero. intros i b E. destruct (G (k + i)%nat) eqn:Eg; [|now apply Hz]. rewrite (H i Eg) in E. destruct i; discriminate.
    + cbn [mapi_from Rsum fold_right]. apply f_equal2.
      * destruct (G k) eqn:Eg.
        -- assert (Eg' : G (k + 0)%nat = true) by (now rewrite Nat.add_0_r). pose proof (H 0%nat Eg') as E. injection E as <-.
           pose proof (He 0%nat a eq_refl Eg') as E'. now rewrite Nat.add_0_r in E'.
        -- destruct (Hz k a Eg) as [-> _]. destruct (Hz k a' Eg) as [_ E]. now rewrite E.
      * apply (IH l' (S k)).
        -- intros i Ei. replace (S k + i)%nat with (k + S i)%nat in Ei by lia. exact (H (S i) Ei).
        -- intros i b E. replace (S k + i)%nat with (k + S i)%nat by lia. exact (He (S i) b E).
Qed.
(** splitting a sum over the group and the others *)
Lemma split_sum {A} (G : nat -> bool) (l : list A) (f : nat -> A -> R) :
  Rsum (mapi f l) = Rsum (mapi (fun i a => if G i then f i a else 0) l) + Rsum (mapi (fun i a => if G i then 0 else f i a) l).
Proof.
  unfold mapi. generalize 0%nat. induction l as [|a l IH]; intros k; [cbn; ring|]. cbn [mapi_from Rsum fold_right]. unfold Rsum in IH. rewrite IH. destruct (G k); ring.
Qed.

(** *** lists woven together *)
Lemma dot_cut (u p q : vecR) : (length p <= length u)%nat -> dot u (p ++ q) = dot (firstn (length p) u) p + dot (skipn (length p) u) q.
Proof. intros H. rewrite <- dot_app by (rewrite firstn_length; lia). now rewrite firstn_skipn. Qed.
Notation total len l := (fold_right (fun a n => (len a + n)%nat) 0%nat l).
Lemma weave {A} (P : A -> bool) (len : A -> nat) (l : list A) (u v : vecR) :
  length u = total len (filter P l) -> length v = total len (filter (fun a => negb (P a)) l) ->
  exists y : vecR, length y = total len l /\
    forall F : A -> vecR, (forall a, In a l -> length (F a) = len a) ->
      dot y (flat_map F l) = dot u (flat_map F (filter P l)) + dot v (flat_map F (filter (fun a => negb (P a)) l)).
Proof.
  revert u v. induction l as [|a l IH]; intros u v Lu Lv.
  - exists []. split; [reflexivity|]. intros F _. cbn [flat_map filter]. rewrite !dot_nil_r. ring.
  - cbn [filter] in *. destruct (P a); cbn [negb fold_right] in *.
    + destruct (IH (skipn (len a) u) v) as (y & Ly & E); [rewrite skipn_length; lia|exact Lv|].
      exists (firstn (len a) u ++ y). split; [rewrite app_length, firstn_length; lia|]. intros F HF. cbn [flat_map].
      assert (La : length (F a) = len a) by (apply HF; now left). rewrite dot_app by (rewrite firstn_length; lia). rewrite E by (intros b Hb; apply HF; now right).
      rewrite (dot_cut u) by lia. rewrite La. ring.
    + destruct (IH u (skipn (len a) v)) as (y & Ly & E); [exact Lu|rewrite skipn_length; lia|].
      exists (firstn (len a) v ++ y). split; [rewrite app_length, firstn_length; lia|]. intros F HF. cbn [flat_map].
      assert (La : length (F a) = len a) by (apply HF; now left). rewrite dot_app by (rewrite firstn_length; lia). rewrite E by (intros b Hb; apply HF; now right).
      rewrite (dot_cut v) by lia. rewrite La. ring.
Qed.
Lemma unweave {A} (P : A -> bool) (len : A -> nat) (l : list A) (y : vecR) : length y = total len l ->
  exists u v : vecR, length u = total len (filter P l) /\ length v = total len (filter (fun a => negb (P a)) l) /\
    forall F : A -> vecR, (forall a, In a l -> length (F a) = len a) ->
      dot y (flat_map F l) = dot u (flat_map F (filter P l)) + dot v (flat_map F (filter (fun a => negb (P a)) l)).
Proof.
  revert y. induction l as [|a l IH]; intros y Ly.
  - exists [], []. split; [reflexivity|]. split; [reflexivity|]. intros F _. cbn [flat_map filter]. rewrite !dot_nil_r. ring.
  - cbn [filter fold_right] in *. destruct (IH (skipn (len a) y)) as (u & v & Lu & Lv & E); [rewrite skipn_length; lia|]. destruct (P a); cbn [negb fold_right] in *.
    + exists (firstn (len a) y ++ u), v. split; [rewrite app_length, firstn_length; lia|]. split; [exact Lv|]. intros F HF. cbn [flat_map].
      assert (La : length (F a) = len a) by (apply HF; now left). rewrite (dot_app (firstn (len a) y)) by (rewrite firstn_length; lia). rewrite (dot_cut y) by lia. rewrite La, E by (intros b Hb; apply HF; now right). ring.
    + exists u, (firstn (len a) y ++ v). split; [exact Lu|]. split; [rewrite app_length, firstn_length; lia|]. intros F HF. cbn [flat_map].
      assert (La : length (F a) = len a) by (apply HF; now left). rewrite (dot_app (firstn (len a) y)) by (rewrite firstn_length; lia). rewrite (dot_cut y) by lia. rewrite La, E by (intros b Hb; apply HF; now right). ring.
Qed.
Lemma weave_contacts (P : contact R -> bool) (Q : contact R -> R * R -> Prop) cs u v :
  Forall2 Q (filter P cs) u -> Forall2 Q (filter (fun c => negb (P c)) cs) v ->
  exists m, Forall2 Q cs m /\ forall x, contact_power cs m x = contact_power (filter P cs) u x + contact_power (filter (fun c => negb (P c)) cs) v x.
Proof.
  unfold contact_power. revert u v. induction cs as [|c cs IH]; intros u v Hu Hv; cbn [filter] in *.
  - inversion Hu; inversion Hv; subst. exists []. split; [constructor|]. intros x. cbn. ring.
  - destruct (P c); cbn [negb] in *.
    + inversion Hu as [|? a ? u1 Ha Hu1]; subst. destruct (IH u1 v Hu1 Hv) as (m & Hm & E). exists (a :: m). split; [now constructor|]. intros x. specialize (E x). unfold Rsum in *. cbn [map2 fold_right]. rewrite E. ring.
    + inversion Hv as [|? a ? v1 Ha Hv1]; subst. destruct (IH u v1 Hu Hv1) as (m & Hm & E). exists (a :: m). split; [now constructor|]. intros x. specialize (E x). unfold Rsum in *. cbn [map2 fold_right]. rewrite E. ring.
Qed.
Lemma unweave_contacts (P : contact R -> bool) (Q : contact R -> R * R -> Prop) cs m : Forall2 Q cs m ->
  exists u v, Forall2 Q (filter P cs) u /\ Forall2 Q (filter (fun c => negb (P c)) cs) v /\ pushes m = pushes u + pushes v /\
    forall x, contact_power cs m x = contact_power (filter P cs) u x + contact_power (filter (fun c => negb (P c)) cs) v x.
Proof.
  unfold contact_power, pushes. induction 1 as [|c im cs m Hc H (u & v & Hu & Hv & Ep & E)].
  - exists [], []. cbn. repeat (split; [constructor|]). split; [ring|]. intros x. ring.
  - cbn [filter]. destruct (P c); cbn [negb].
    + exists (im :: u), v. split; [now constructor|]. split; [exact Hv|]. unfold Rsum in *. cbn [map map2 fold_right] in *. split; [rewrite Ep; ring|]. intros x. rewrite (E x). ring.
    + exists u, (im :: v). split; [exact Hu|]. split; [now constructor|]. unfold Rsum in *. cbn [map map2 fold_right] in *. split; [rewrite Ep; ring|]. intros x. rewrite (E x). ring.
Qed.
Lemma power_zero cs m x : (forall c, In c cs -> relative_velocity x c = (0, 0)) -> contact_power cs m x = 0.
Proof.
  intros H. unfold contact_power. revert m. induction cs as [|c cs IH]; intros m; [reflexivity|]. destruct m as [|im m]; [reflexivity|].
  cbn [map2 Rsum fold_right]. specialize (IH ltac:(intros; apply H; now right) m). unfold Rsum in IH. rewrite IH, (H c ltac:(now left)). unfold component. cbn [fst snd]. ring.
Qed.
Lemma power_ext cs m x x' : (forall c, In c cs -> relative_velocity x c = relative_velocity x' c) -> contact_power cs m x = contact_power cs m x'.
Proof.
  intros H. unfold contact_power. revert m. induction cs as [|c cs IH]; intros m; [reflexivity|]. destruct m as [|im m]; [reflexivity|].
  cbn [map2 Rsum fold_right]. specialize (IH ltac:(intros; apply H; now right) m). unfold Rsum in IH. rewrite IH, (H c ltac:(now left)). reflexivity.
Qed.
Lemma dot_fields (w : world R) (x y : vecR) : length x = (3 * length (w_bodies w))%nat -> length y = (3 * length (w_bodies w))%nat ->
  dot x y = Rsum (mapi (fun i _ => d3 (v3_at x i) (v3_at y i)) (w_bodies w)).
Proof. apply dot_mapi. Qed.

Lemma cv_length bs js J0 w x : sound bs js J0 w -> length x = (3 * length (w_bodies w))%nat -> length (constraint_velocity w x) = w_num_constraints w.
Proof. intros HS L. rewrite <- (Je_cv _ _ _ _ HS) by exact L. rewrite mv_length. apply (wf_length _ _ _ (so_Je _ _ _ _ HS)). Qed.
Lemma field_id G k (q : vecR) i : length q = (3 * k)%nat -> G i = true -> v3_at (field G k (v3_at q)) i = v3_at q i.
Proof. intros L E. destruct (Nat.lt_ge_cases i k) as [H|H]; [now rewrite field_at, E|]. now rewrite (over_at _ k i (field_length _ _ _) H), (over_at _ k i L H). Qed.
Lemma kinetic_ext G w g (z z' : vecR) : (forall i, G i = true -> (i < length (w_bodies w))%nat -> v3_at z i = v3_at z' i) -> kinetic w (field G (length (w_bodies w)) g) z = kinetic w (field G (length (w_bodies w)) g) z'.
Proof.
  intros H. unfold kinetic. apply Rsum_mapi_ext. intros i b Hb. destruct (G i) eqn:E.
  - rewrite (H i E); [reflexivity|]. apply nth_error_Some. congruence.
  - rewrite field_out by exact E. unfold component. cbn [fst snd]. ring.
Qed.
Lemma kinetic_parts G w (q z : vecR) : length q = (3 * length (w_bodies w))%nat ->
  kinetic w q z = kinetic w (field G (length (w_bodies w)) (v3_at q)) z + kinetic w (field (fun i => negb (G i)) (length (w_bodies w)) (v3_at q)) z.
Proof.
  intros L. unfold kinetic. rewrite (split_sum G). apply f_equal2; apply Rsum_mapi_ext; intros i b Hb; destruct (G i) eqn:E.
  - now rewrite field_id.
  - rewrite field_out by exact E. unfold component. cbn [fst snd]. ring.
  - rewrite (field_out (fun i => negb (G i))) by (now rewrite E). unfold component. cbn [fst snd]. ring.
  - rewrite (field_id (fun i => negb (G i))) by (try exact L; now rewrite E). reflexivity.
Qed.
Lemma dot_parts G (w : world R) (q z : vecR) : length q = (3 * length (w_bodies w))%nat -> length z = (3 * length (w_bodies w))%nat ->
  dot q z = dot (field G (length (w_bodies w)) (v3_at q)) z + dot (field (fun i => negb (G i)) (length (w_bodies w)) (v3_at q)) z.
Proof.
  intros L Lz. rewrite !(dot_fields w) by (auto using field_length). rewrite (split_sum G). apply f_equal2; apply Rsum_mapi_ext; intros i b Hb; destruct (G i) eqn:E.
  - now rewrite field_id.
  - rewrite field_out by exact E. unfold d3. cbn [fst snd]. ring.
  - rewrite (field_out (fun i => negb (G i))) by (now rewrite E). unfold d3. cbn [fst snd]. ring.
  - rewrite (field_id (fun i => negb (G i))) by (try exact L; now rewrite E). reflexivity.
Qed.
Lemma flat_map_total {A B} (F : A -> list B) l : length (flat_map F l) = total (fun a => length (F a)) l.
Proof. induction l as [|a l IH]; [reflexivity|]. cbn [flat_map fold_right]. now rewrite app_length, IH. Qed.
Lemma flat_map_in {A B} (F F' : A -> list B) l : (forall a, In a l -> F a = F' a) -> flat_map F l = flat_map F' l.
Proof. induction l as [|a l IH]; intros H; [reflexivity|]. cbn [flat_map]. rewrite (H a) by (now left). rewrite IH by (intros b Hb; apply H; now right). reflexivity. Qed.
Lemma flat_map_zero {A} (F : A -> vecR) l : (forall a, In a l -> Forall (fun a => a = 0) (F a)) -> Forall (fun a => a = 0) (flat_map F l).
Proof. induction l as [|a l IH]; intros H; [constructor|]. cbn [flat_map]. apply Forall_app. split; [apply H; now left|]. apply IH. intros b Hb. apply H. now right. Qed.
Lemma apart_neg G w : apart G w -> apart (fun i => negb (G i)) w.
Proof. intros [A B]. split; [intros c Hc; now rewrite (A c Hc)|]. intros j i1 i2 Hi. now rewrite (B j i1 i2 Hi). Qed.
Lemma same_sym G w w' : same_group G w w' -> same_group G w' w.
Proof. intros [A B C D E F F']. constructor; auto. intros i Hi. symmetry. now apply C. Qed.
Lemma same_refl G w : apart G w -> same_group G w w.
Proof. intros A. constructor; auto. Qed.
(** the constraints outside see nothing of a motion of the group *)
Lemma entry_out G w k g e : apart G w -> In e (w_joints w) -> G (snd (fst e)) = false -> Forall (fun a => a = 0) (entry_vel w (field G k g) e).
Proof.
  destruct e as [[j i1] i2]. cbn [fst snd]. intros A Hin E. apply entry_zero; [now apply field_out|]. intros i ->. apply field_out. now rewrite <- (proj2 A _ _ _ Hin).
Qed.
Lemma out_group G u c : apart G u -> In c (filter (fun c => negb (G (c_i1 c))) (w_contacts u)) -> G (c_i1 c) = false /\ G (c_i2 c) = false.
Proof. intros [A _] H. apply filter_In in H. destruct H as [H E]. apply negb_true_iff in E. split; [exact E|]. now rewrite <- (A c H). Qed.
Lemma Forall2_imp {A B} (P Q : A -> B -> Prop) l m : (forall a b, P a b -> Q a b) -> Forall2 P l m -> Forall2 Q l m.
Proof. intros H F. induction F; constructor; auto. Qed.
Lemma Forall2_known {A B} (P Q : A -> B -> Prop) l m : (forall a b, In a l -> P a b -> Q a b) -> Forall2 P l m -> Forall2 Q l m.
Proof. intros H F. induction F as [|a b l m Hab F IH]; constructor; [apply H; [now left|exact Hab]|]. apply IH. intros a' b' Hin. apply H. now right. Qed.
(** the impulses at the contacts of the group *)
Lemma power_group G u m (Q : contact R -> R * R -> Prop) : apart G u -> Forall2 Q (w_contacts u) m ->
  exists p, Forall2 Q (contacts_of G u) p /\ (Forall (fun im => 0 <= fst im) m -> pushes p <= pushes m) /\
    forall k g, contact_power (w_contacts u) m (field G k g) = contact_power (contacts_of G u) p (field G k g).
Proof.
  intros A H. assert (Hn : Forall2 (fun c im => Q c im /\ In im m) (w_contacts u) m).
  { clear A. induction H as [|c im cs m Hc H IH]; constructor; [split; [exact Hc|now left]|]. eapply Forall2_imp; [|exact IH]. intros a b [H1 H2]. split; [exact H1|now right]. }
  destruct (unweave_contacts (fun c => G (c_i1 c)) _ _ _ Hn) as (p & v & Hp & Hv & Ep & E). exists p. split; [eapply Forall2_imp; [|exact Hp]; now intros a b [H1 _]|]. split.
  - intros Hm. assert (0 <= pushes v); [|lra]. rewrite Forall_forall in Hm. clear - Hv Hm. unfold pushes. induction Hv as [|c im cs l [_ Hc] H IH]; [cbn; lra|]. cbn [map Rsum fold_right]. unfold Rsum in IH. specialize (Hm _ Hc). lra.
  - intros k g. rewrite E. rewrite (power_zero (filter (fun c => negb (G (c_i1 c))) (w_contacts u))); [unfold contacts_of; ring|]. intros c Hc. destruct (out_group G u c A Hc) as [E1 E2]. apply relative_zero; now apply field_out.
Qed.
(** the forces in the constraints of the group *)
Lemma tension_group bs js J0 G u y : sound bs js J0 u -> apart G u -> length y = w_num_constraints u ->
  exists p : vecR, length p = total (fun e => length (entry_vel u [] e)) (joints_of G u) /\
    forall g, dot y (constraint_velocity u (field G (length (w_bodies u)) g)) = dot p (flat_map (entry_vel u (field G (length (w_bodies u)) g)) (joints_of G u)).
Proof.
  intros HS A L. destruct (unweave (fun e : jent => G (snd (fst e))) (fun e => length (entry_vel u [] e)) (w_joints u) y) as (p & v & Lp & Lv & E).
  { rewrite L. rewrite <- (cv_length _ _ _ _ (vzeros (3 * length (w_bodies u))) HS) by apply vzeros_length. rewrite cv_entries, flat_map_total.
    clear. induction (w_joints u) as [|e l IH]; [reflexivity|]. cbn [fold_right]. rewrite IH. f_equal. apply entry_vel_length. }
  exists p. split; [exact Lp|]. intros g. rewrite cv_entries. rewrite E by (intros; apply entry_vel_length).
  rewrite (dot_zero_r v); [unfold joints_of; ring|]. apply flat_map_zero. intros e He. apply filter_In in He. destruct He as [He E1]. apply negb_true_iff in E1. now apply entry_out.
Qed.

(** *** the two worlds *)
Section Same.
Variables (bs bs' : list (body R)) (js js' : list (joint R)) (J0 J0' : list jent) (G : nat -> bool) (w w' : world R).
Hypothesis HS : sound bs js J0 w.
Hypothesis HS' : sound bs' js' J0' w'.
Hypothesis HG : same_group G w w'.
Notation n := (length (w_bodies w)).
Notation n' := (length (w_bodies w')).
Notation inG := (fun c : contact R => G (c_i1 c)).
Notation inJ := (fun e : jent => G (snd (fst e))).

Lemma group_range i : G i = true -> (i < n <-> i < n')%nat.
Proof. intros E. rewrite <- !nth_error_Some. now rewrite (sg_bodies _ _ _ HG i E). Qed.
Lemma group_v i : G i = true -> v3_at (w_v w) i = v3_at (w_v w') i.
Proof.
  intros E. destruct (nth_error (w_bodies w) i) as [b|] eqn:Eb.
  - rewrite <- (aligned_reads _ _ _ (so_v _ _ _ _ HS) Eb). rewrite (sg_bodies _ _ _ HG i E) in Eb. now rewrite <- (aligned_reads _ _ _ (so_v _ _ _ _ HS') Eb).
  - pose proof Eb as Eb'. rewrite (sg_bodies _ _ _ HG i E) in Eb'. apply nth_error_None in Eb, Eb'.
    rewrite (over_at _ n i (so_vlen _ _ _ _ HS) Eb), (over_at _ n' i (so_vlen _ _ _ _ HS') Eb'). reflexivity.
Qed.
Lemma group_force f f' i : world_apply_forces w (w_t w) = Ok f -> world_apply_forces w' (w_t w') = Ok f' -> G i = true -> v3_at f i = v3_at f' i.
Proof.
  intros H H' E. apply apply_forces_layout in H, H'. destruct H as [L H], H' as [L' H']. destruct (nth_error (w_bodies w) i) as [b|] eqn:Eb.
  - specialize (H i b Eb). rewrite (sg_bodies _ _ _ HG i E) in Eb. specialize (H' i b Eb). rewrite <- (sg_heap _ _ _ HG), <- (sg_time _ _ _ HG), H in H'. congruence.
  - pose proof Eb as Eb'. rewrite (sg_bodies _ _ _ HG i E) in Eb'. apply nth_error_None in Eb, Eb'. rewrite (over_at _ n i L Eb), (over_at _ n' i L' Eb'). reflexivity.
Qed.
Lemma fields_same g i : v3_at (field G n g) i = v3_at (field G n' g) i.
Proof.
  destruct (G i) eqn:E; [|now rewrite !field_out]. pose proof (group_range i E) as Hr. destruct (Nat.lt_ge_cases i n) as [H|H].
  - rewrite !field_at by (first [exact H|apply Hr; exact H]). reflexivity.
  - rewrite (over_at _ n i (field_length _ _ _) H), (over_at _ n' i (field_length _ _ _)); [reflexivity|]. destruct (Nat.lt_ge_cases i n') as [H1|H1]; [apply Hr in H1; lia|exact H1].
Qed.
Lemma relative_same x x' c : v3_at x (c_i1 c) = v3_at x' (c_i1 c) -> v3_at x (c_i2 c) = v3_at x' (c_i2 c) -> relative_velocity x c = relative_velocity x' c.
Proof. intros E1 E2. unfold relative_velocity. now rewrite E1, E2. Qed.
Lemma entry_same x x' e : G (snd (fst e)) = true -> (forall i, G i = true -> v3_at x i = v3_at x' i) -> In e (w_joints w) \/ In e (w_joints w') -> entry_vel w x e = entry_vel w' x' e.
Proof.
  destruct e as [[j i1] i2]. cbn [fst snd]. intros E1 Hx Hin. unfold entry_vel. rewrite <- (sg_bodies _ _ _ HG i1 E1). destruct (nth_error (w_bodies w) i1) as [b1|]; [|reflexivity].
  rewrite (Hx i1 E1). f_equal. destruct i2 as [i|]; [|reflexivity].
  assert (E2 : G i = true). { destruct Hin as [Hin|Hin]; [rewrite <- (proj2 (sg_apart _ _ _ HG) _ _ _ Hin)|rewrite <- (proj2 (sg_apart' _ _ _ HG) _ _ _ Hin)]; exact E1. }
  rewrite <- (sg_bodies _ _ _ HG i E2), (Hx i E2). reflexivity.
Qed.
Lemma mixed_same f c : G (c_i1 c) = true -> G (c_i2 c) = true -> mixed w f c = mixed w' f c.
Proof. intros E1 E2. unfold mixed, body_at. now rewrite (sg_bodies _ _ _ HG _ E1), (sg_bodies _ _ _ HG _ E2). Qed.
Lemma in_group c : In c (contacts_of G w) -> In c (w_contacts w) /\ In c (w_contacts w') /\ G (c_i1 c) = true /\ G (c_i2 c) = true.
Proof.
  intros H. pose proof H as H'. rewrite (sg_contacts _ _ _ HG) in H'. apply filter_In in H, H'. destruct H as [H E], H' as [H' _]. repeat split; auto. now rewrite <- (proj1 (sg_apart _ _ _ HG) c H).
Qed.

Lemma kinetic_group g (z z' : vecR) : (forall i, G i = true -> v3_at z i = v3_at z' i) -> kinetic w (field G n g) z = kinetic w' (field G n' g) z'.
Proof.
  intros Hz. unfold kinetic. apply (group_sum G); [apply (sg_bodies _ _ _ HG)| |].
  - intros i a E. rewrite !field_out by exact E. unfold component. cbn [fst snd]. split; ring.
  - intros i a _ E. now rewrite fields_same, (Hz i E).
Qed.
Lemma dot_group g (z z' : vecR) : length z = (3 * n)%nat -> length z' = (3 * n')%nat -> (forall i, G i = true -> v3_at z i = v3_at z' i) -> dot (field G n g) z = dot (field G n' g) z'.
Proof.
  intros L L' Hz. rewrite (dot_fields w), (dot_fields w') by (auto using field_length). apply (group_sum G); [apply (sg_bodies _ _ _ HG)| |].
  - intros i a E. rewrite !field_out by exact E. unfold d3. cbn [fst snd]. split; ring.
  - intros i a _ E. now rewrite fields_same, (Hz i E).
Qed.
Lemma norm_group g : norm2 (field G n g) = norm2 (field G n' g).
Proof. unfold norm2. f_equal. apply dot_group; try apply field_length. intros. apply fields_same. Qed.
Lemma combined_length k x x' : length (combined G k x x') = (3 * k)%nat.
Proof. unfold combined. now rewrite cat3_length, map_length, seq_length. Qed.
(** a motion that obeys the constraints of the one world, restricted to the group, obeys those of the other *)
Lemma cv_transfer x' : length x' = (3 * n')%nat -> constraint_velocity w' x' = vzeros (w_num_constraints w') -> constraint_velocity w (field G n (v3_at x')) = vzeros (w_num_constraints w).
Proof.
  intros L E. apply zeros_forall; [|apply (cv_length _ _ _ _ _ HS), field_length]. rewrite cv_entries. apply flat_map_zero. intros e He. destruct (G (snd (fst e))) eqn:Eg.
  - assert (He' : In e (w_joints w')). { assert (Q : In e (joints_of G w)) by (apply filter_In; auto). rewrite (sg_joints _ _ _ HG) in Q. now apply filter_In in Q. }
    rewrite (entry_same _ x' e Eg); [exact (still_entry _ _ _ _ _ _ HS' E He')| |now left]. intros i Ei. rewrite fields_same. now apply field_id.
  - now apply (entry_out G w); [apply HG| |].
Qed.
End Same.

Section Core.
Variables (bs bs' : list (body R)) (js js' : list (joint R)) (J0 J0' : list jent) (G : nat -> bool) (w w' : world R).
Hypothesis HS : sound bs js J0 w.
Hypothesis HS' : sound bs' js' J0' w'.
Hypothesis HG : same_group G w w'.
Notation n := (length (w_bodies w)).
Notation n' := (length (w_bodies w')).
Notation change x x' := (fun i => (fst (v3_at x i) - fst (v3_at x' i), v2sub (snd (v3_at x i)) (snd (v3_at x' i)))).
Lemma change_sub k (x x' : vecR) : field G k (change x x') = vsub (field G k (v3_at x)) (field G k (v3_at x')).
Proof.
  unfold field. generalize 0%nat. induction k as [|k IH]; intros a; [reflexivity|]. cbn [seq map]. unfold cat3 in *. cbn [flat_map]. rewrite IH. destruct (G a); unfold v3list, v2sub, vsub, vmap2; cbn [fst snd app map2 nsub RNum]; repeat (apply f_equal2; [try reflexivity; rnum; ring|]); reflexivity.
Qed.
Lemma cv_change x x' : length x = (3 * n)%nat -> length x' = (3 * n')%nat ->
  constraint_velocity w x = vzeros (w_num_constraints w) -> constraint_velocity w' x' = vzeros (w_num_constraints w') ->
  constraint_velocity w (field G n (change x x')) = vzeros (w_num_constraints w).
Proof.
  intros L L' E E'. rewrite change_sub. apply (cv_sub bs js J0 w HS); try apply field_length.
  - apply (cv_transfer bs bs js js J0 J0 G w w HS HS (same_refl _ _ (sg_apart _ _ _ HG))); auto.
  - apply (cv_transfer bs bs' js js' J0 J0' G w w' HS HS' HG); auto.
Qed.

Lemma near_pair r r' x x' q cs : 0 <= r -> 0 <= r' ->
  (forall c, In c cs -> mixed w b_rest c = mixed w' b_rest c /\ normal_velocity (w_v w) c = normal_velocity (w_v w') c) ->
  (forall c, In c cs -> normal_velocity q c = normal_velocity x c - normal_velocity x' c) ->
  forall l l', Forall2 (near r w x) cs l -> Forall2 (near r' w' x') cs l' ->
  contact_power cs l q - contact_power cs l' q <= (r + r') * (pushes l + pushes l' + Rsum (map (fun c => Rabs (slip_velocity q c)) cs)).
Proof.
  intros Hr Hr' He Hq l l' H. revert l'. unfold contact_power, pushes. induction H as [|c im cs l Hc H IH]; intros l' H'; [inversion H'; cbn; lra|].
  inversion H' as [|? im' ? l1 Hc' H1]; subst. cbn [map map2 Rsum fold_right]. unfold Rsum in IH.
  specialize (IH ltac:(intros c' Hin; apply He; now right) ltac:(intros c' Hin; apply Hq; now right) l1 H1).
  fold (normal_velocity q c) (slip_velocity q c). rewrite (Hq c (or_introl eq_refl)). destruct (He c (or_introl eq_refl)) as [E1 E2].
  destruct Hc as (A1 & A2 & A3 & A4). destruct Hc' as (B1 & B2 & B3 & B4). rewrite E1, E2 in *. set (e := mixed w' b_rest c) in *. set (v := normal_velocity (w_v w') c) in *.
  set (s := normal_velocity x c + e * v) in *. set (s' := normal_velocity x' c + e * v) in *.
  replace (normal_velocity x c - normal_velocity x' c) with (s - s') by (unfold s, s'; ring).
  assert (Q : (fst im - fst im') * (s - s') <= (r + r') * (2 + fst im + fst im')) by nra.
  assert (P : (snd im - snd im') * slip_velocity q c <= (r + r') * Rabs (slip_velocity q c)).
  { pose proof (Rabs_pos (slip_velocity q c)). apply Rle_trans with (Rabs ((snd im - snd im') * slip_velocity q c)); [apply Rle_abs|]. rewrite Rabs_mult. apply Rmult_le_compat_r; [lra|].
    unfold Rminus. eapply Rle_trans; [apply Rabs_triang|]. rewrite Rabs_Ropp. lra. }
  lra.
Qed.
Lemma in_both c : In c (contacts_of G w) -> In c (w_contacts w) /\ In c (w_contacts w') /\ G (c_i1 c) = true /\ G (c_i2 c) = true.
Proof. exact (in_group G w w' HG c). Qed.
Lemma field_normal x x' c : length x = (3 * n)%nat -> length x' = (3 * n')%nat -> In c (contacts_of G w) ->
  normal_velocity (field G n (change x x')) c = normal_velocity x c - normal_velocity x' c.
Proof.
  intros L L' Hc. destruct (in_both c Hc) as (_ & _ & E1 & E2). rewrite change_sub. rewrite normal_sub by (now rewrite !field_length). unfold normal_velocity.
  rewrite (relative_same (field G n (v3_at x)) x c) by (now apply field_id).
  rewrite (relative_same (field G n (v3_at x')) x' c) by (rewrite (fields_same G w w' HG); now apply field_id). reflexivity.
Qed.
Lemma slip_part (P : contact R -> bool) q cs : Rsum (map (fun c => Rabs (slip_velocity q c)) (filter P cs)) <= Rsum (map (fun c => Rabs (slip_velocity q c)) cs).
Proof. induction cs as [|c cs IH]; [cbn; lra|]. cbn [filter]. pose proof (Rabs_pos (slip_velocity q c)). unfold Rsum in *. destruct (P c); cbn [map fold_right]; lra. Qed.

Lemma group_core r r' dt f f' x x' y y' l l' err err' :
  world_apply_forces w (w_t w) = Ok f -> world_apply_forces w' (w_t w') = Ok f' ->
  length x = (3 * n)%nat -> length x' = (3 * n')%nat -> length err = (3 * n)%nat -> length err' = (3 * n')%nat -> norm2 err <= r -> norm2 err' <= r' ->
  balance w dt f x l y err -> balance w' dt f' x' l' y' err' ->
  constraint_velocity w x = vzeros (w_num_constraints w) -> constraint_velocity w' x' = vzeros (w_num_constraints w') ->
  Forall2 (fun c im => 0 <= fst im /\ (In c (contacts_of G w) -> near r w x c im)) (w_contacts w) l ->
  Forall2 (fun c im => 0 <= fst im /\ (In c (contacts_of G w') -> near r' w' x' c im)) (w_contacts w') l' ->
  let q := group_change G n x x' in
  kinetic w q q <= (r + r') * (pushes l + pushes l' + slip_total w q + norm2 q).
Proof.
  intros Ef Ef' Lx Lx' Le Le' Ne Ne' (_ & _ & B) (_ & _ & B') HC HC' N N' q.
  assert (Lf : length f = (3 * n)%nat) by (apply apply_forces_layout in Ef; apply Ef). assert (Lf' : length f' = (3 * n')%nat) by (apply apply_forces_layout in Ef'; apply Ef').
  assert (Pr : 0 <= r) by (pose proof (norm2_nonneg err); lra). assert (Pr' : 0 <= r') by (pose proof (norm2_nonneg err'); lra).
  change (group_change G n x x') with (field G n (change x x')) in q. pose (q' := field G n' (change x x')). assert (Lq : length q = (3 * n)%nat) by apply field_length.
  pose proof (cv_change x x' Lx Lx' HC HC') as Cq.
  assert (Cq' : constraint_velocity w' q' = vzeros (w_num_constraints w')).
  { unfold q'. rewrite change_sub. apply (cv_sub bs' js' J0' w' HS'); try apply field_length.
    - apply (cv_transfer bs' bs js' js J0' J0 G w' w HS' HS (same_sym _ _ _ HG)); auto.
    - apply (cv_transfer bs' bs' js' js' J0' J0' G w' w' HS' HS' (same_refl _ _ (sg_apart' _ _ _ HG))); auto. }
  specialize (B q Lq). specialize (B' q' (field_length _ _ _)). fold q in Cq. rewrite Cq, dot_zeros_r in B. rewrite Cq', dot_zeros_r in B'.
  assert (K0 : kinetic w q (w_v w) = kinetic w' q' (w_v w')) by (apply (kinetic_group G w w' HG); intros i Ei; apply (group_v bs bs' js js' J0 J0' G w w' HS HS' HG i Ei)).
  assert (F0 : dot q f = dot q' f') by (apply (dot_group G w w' HG); auto; intros i Ei; apply (group_force G w w' HG); auto).
  assert (K1 : kinetic w' q' x' = kinetic w q (field G n (v3_at x'))).
  { symmetry. apply (kinetic_group G w w' HG). intros i Ei. rewrite (fields_same G w w' HG). now apply field_id. }
  assert (K2 : kinetic w q x = kinetic w q (field G n (v3_at x))) by (apply kinetic_ext; intros i Ei _; symmetry; now apply field_id).
  assert (K3 : kinetic w q q = kinetic w q x - kinetic w' q' x').
  { rewrite K1, K2. unfold q at 2. rewrite change_sub. apply kinetic_sub_r; auto using field_length. apply (so_M _ _ _ _ HS). }
  destruct (power_group G w l _ (sg_apart _ _ _ HG) N) as (p & Hp & Pp & Ep). destruct (power_group G w' l' _ (sg_apart' _ _ _ HG) N') as (p' & Hp' & Pp' & Ep').
  specialize (Ep n (change x x')). specialize (Ep' n' (change x x')). fold q in Ep. fold q' in Ep'. rewrite Ep in B. rewrite Ep' in B'.
  assert (Pl : Forall (fun im => 0 <= fst im) l) by (clear - N; induction N as [|c im cs l [H _] _ IH]; constructor; auto). assert (Pl' : Forall (fun im => 0 <= fst im) l') by (clear - N'; induction N' as [|c im cs l [H _] _ IH]; constructor; auto).
  specialize (Pp Pl). specialize (Pp' Pl').
  assert (Sw : contact_power (contacts_of G w') p' q' = contact_power (contacts_of G w) p' q).
  { rewrite <- (sg_contacts _ _ _ HG). apply power_ext. intros c Hc. apply relative_same; symmetry; apply (fields_same G w w' HG). }
  rewrite Sw in B'.
  assert (P : contact_power (contacts_of G w) p q - contact_power (contacts_of G w) p' q <= (r + r') * (pushes p + pushes p' + Rsum (map (fun c => Rabs (slip_velocity q c)) (contacts_of G w)))).
  { apply (near_pair r r' x x' q); auto.
    - intros c Hc. destruct (in_both c Hc) as (_ & _ & E1 & E2). split; [apply (mixed_same G w w' HG); auto|]. unfold normal_velocity. f_equal. apply relative_same; apply (group_v bs bs' js js' J0 J0' G w w' HS HS' HG); auto.
    - intros c Hc. now apply field_normal.
    - eapply Forall2_known; [|exact Hp]. intros c im Hc [_ H]. auto.
    - rewrite (sg_contacts _ _ _ HG). eapply Forall2_known; [|exact Hp']. intros c im Hc [_ H]. auto. }
  pose proof (slip_part (fun c => G (c_i1 c)) q (w_contacts w)) as SP. fold (contacts_of G w) in SP. fold (slip_total w q) in SP.
  pose proof (dot_err err q r ltac:(unfold vec in *; congruence) Ne) as D. pose proof (dot_err (vopp err') q' r' ltac:(rewrite vopp_length; unfold q'; rewrite field_length; exact Le')) as D'.
  replace (norm2 (vopp err')) with (norm2 err') in D' by (unfold norm2; now rewrite dot_vopp_l, dot_vopp_r, Ropp_involutive). specialize (D' Ne'). rewrite dot_vopp_l in D'.
  replace (norm2 q') with (norm2 q) in D' by (apply (norm_group G w w' HG)).
  assert (Pm : (r + r') * (pushes p + pushes p' + Rsum (map (fun c => Rabs (slip_velocity q c)) (contacts_of G w))) <= (r + r') * (pushes l + pushes l' + slip_total w q)) by (apply Rmult_le_compat_l; lra).
  rewrite K3, B, B', K0, F0. lra.
Qed.
End Core.

(** *** what the group does *)
Lemma kinetic_zero_group G w x : (forall i b, G i = true -> nth_error (w_bodies w) i = Some b -> 0 < b_mass b /\ 0 < b_inertia b) ->
  (forall i, G i = false -> v3_at x i = zero3) -> kinetic w x x <= 0 -> forall i, (i < length (w_bodies w))%nat -> v3_at x i = zero3.
Proof.
  intros Hm Hz. unfold kinetic, mapi.
  assert (Q : forall l k, (forall i b, G (k + i)%nat = true -> nth_error l i = Some b -> 0 < b_mass b /\ 0 < b_inertia b) ->
    let s := Rsum (mapi_from k (fun i b => b_inertia b * (fst (v3_at x i) * fst (v3_at x i)) + b_mass b * component (snd (v3_at x i)) (snd (v3_at x i))) l) in
    0 <= s /\ (s <= 0 -> forall i, (i < length l)%nat -> v3_at x (k + i) = zero3)).
  { induction l as [|b l IH]; intros k H; cbv zeta; [split; [cbn; lra|]; intros _ i Hi; cbn in Hi; lia|].
    destruct (IH (S k)) as [P1 P2]. { intros i b' Ei. apply (H (S i)). now rewrite Nat.add_succ_r. }
    cbn [mapi_from Rsum fold_right]. unfold Rsum in *. set (s := fold_right Rplus 0 (mapi_from (S k) _ l)) in *.
    assert (P0 : let h := b_inertia b * (fst (v3_at x k) * fst (v3_at x k)) + b_mass b * component (snd (v3_at x k)) (snd (v3_at x k)) in 0 <= h /\ (h <= 0 -> v3_at x k = zero3)).
    { cbv zeta. destruct (G k) eqn:E.
      - destruct (H 0%nat b) as [M I]; [now rewrite Nat.add_0_r|reflexivity|]. destruct (v3_at x k) as [a [c d]]. unfold component. cbn [fst snd].
        pose proof (Rle_0_sqr a). pose proof (Rle_0_sqr c). pose proof (Rle_0_sqr d). unfold Rsqr in *. split; [nra|]. intros Hh.
        assert (a * a = 0) by nra. assert (c * c = 0) by nra. assert (d * d = 0) by nra.
        assert (a = 0) by (now apply Rsqr_0_uniq). assert (c = 0) by (now apply Rsqr_0_uniq). assert (d = 0) by (now apply Rsqr_0_uniq). now subst.
      - rewrite (Hz k E). unfold component. cbn [fst snd]. split; [lra|reflexivity]. }
    cbv zeta in P0. destruct P0 as [P3 P4]. split; [lra|]. intros Hs [|i] Hi; [rewrite Nat.add_0_r; apply P4; lra|]. rewrite Nat.add_succ_r. apply (P2 ltac:(lra) i). cbn in Hi. lia. }
  intros Hk i Hi. apply (proj2 (Q (w_bodies w) 0%nat Hm) Hk i Hi).
Qed.
Lemma frictionless_near G w x imps : (forall c, In c (contacts_of G w) -> mixed w b_fric c = 0) -> Forall2 (fun c im => coulomb w x c (fst im) (snd im)) (w_contacts w) imps ->
  Forall2 (fun c im => 0 <= fst im /\ (In c (contacts_of G w) -> near 0 w x c im)) (w_contacts w) imps.
Proof.
  intros Hf H. eapply Forall2_imp; [|exact H]. intros c [l t] C. split; [apply (co_push _ _ _ _ _ C)|]. intros Hc. apply coulomb_near; [now apply Hf|exact C].
Qed.
Lemma group_same la mi la' mi' bs js bs' js' G w w' dt x imps x' imps' : engine_world la mi bs js w -> engine_world la' mi' bs' js' w' -> same_group G w w' ->
  (forall i b, G i = true -> nth_error (w_bodies w) i = Some b -> 0 < b_mass b /\ 0 < b_inertia b) ->
  (forall c, In c (contacts_of G w) -> mixed w b_fric c = 0) ->
  response w dt x imps -> response w' dt x' imps' -> forall i, G i = true -> v3_at x i = v3_at x' i.
Proof.
  intros HW HW' HG Hm Hf (f & y & Ef & Lx & B & HC & HL) (f' & y' & Ef' & Lx' & B' & HC' & HL') i Ei.
  destruct (engine_world_sound _ _ _ _ _ HW) as (J0 & HS & _). destruct (engine_world_sound _ _ _ _ _ HW') as (J0' & HS' & _).
  assert (Hf' : forall c, In c (contacts_of G w') -> mixed w' b_fric c = 0).
  { intros c Hc. rewrite <- (sg_contacts _ _ _ HG) in Hc. destruct (in_group G w w' HG c Hc) as (_ & _ & E1 & E2). rewrite <- (mixed_same G w w' HG) by auto. now apply Hf. }
  assert (Z : forall k, norm2 (vzeros k) <= 0) by (intros k; unfold norm2; rewrite dot_zeros_l, sqrt_0; lra).
  pose proof (group_core bs bs' js js' J0 J0' G w w' HS HS' HG 0 0 dt f f' x x' y y' imps imps' _ _ Ef Ef' Lx Lx' (vzeros_length _) (vzeros_length _) (Z _) (Z _) B B' HC HC' (frictionless_near _ _ _ _ Hf HL) (frictionless_near _ _ _ _ Hf' HL')) as K.
  cbv zeta in K. replace ((0 + 0) * _) with 0 in K by ring.
  change (group_change G (length (w_bodies w)) x x') with (field G (length (w_bodies w)) (fun i => (fst (v3_at x i) - fst (v3_at x' i), v2sub (snd (v3_at x i)) (snd (v3_at x' i))))) in K.
  pose proof (group_range G w w' HG i Ei) as Hr. destruct (Nat.lt_ge_cases i (length (w_bodies w))) as [H|H].
  - pose proof (kinetic_zero_group G w _ Hm (fun k Ek => field_out _ _ _ _ Ek) K i H) as Q. rewrite field_at, Ei in Q by exact H.
    destruct (v3_at x i) as [a [b c]], (v3_at x' i) as [a' [b' c']]. unfold v2sub in Q. cbn [fst snd] in Q. unfold nsub in Q. cbn in Q. injection Q as Q1 Q2 Q3. apply f_equal2; [lra|apply f_equal2; lra].
  - rewrite (over_at x _ i Lx H). rewrite (over_at x' _ i Lx'); [reflexivity|]. destruct (Nat.lt_ge_cases i (length (w_bodies w'))) as [H1|H1]; [apply Hr in H1; lia|exact H1].
Qed.
Lemma returned_near G r w x nc z : (forall c, In c (contacts_of G w) -> mixed w b_fric c = 0) -> Forall (fun a => 0 <= a) z -> nc = length (w_contacts w) ->
  (forall i c, nth_error (w_contacts w) i = Some c -> law r w x c (multipliers nc z i)) ->
  Forall2 (fun c im => 0 <= fst im /\ (In c (contacts_of G w) -> near r w x c im)) (w_contacts w) (impulses nc z).
Proof.
  intros Hf Hz En H. unfold impulses. replace (seq 0 nc) with (seq 0 (length (w_contacts w))) by (now rewrite En).
  assert (Q : forall cs k, (forall i c, nth_error cs i = Some c -> law r w x c (multipliers nc z (k + i))) ->
    Forall2 (fun c im => 0 <= fst im /\ (In c (contacts_of G w) -> near r w x c im)) cs (map (fun i => let '(l, b1, b2, _) := multipliers nc z i in (l, b1 - b2)) (seq k (length cs)))).
  { induction cs as [|c cs IH]; intros k Hc; [constructor|]. cbn [length seq map]. constructor.
    - pose proof (Hc 0%nat c eq_refl) as L. rewrite Nat.add_0_r in L. split; [unfold multipliers; cbn [fst]; now apply vget_nonneg|]. intros Hin. exact (law_near _ _ _ _ _ (Hf c Hin) L).
    - apply IH. intros i c' E. specialize (Hc (S i) c' E). now rewrite Nat.add_succ_r in Hc. }
  apply Q. exact H.
Qed.
Lemma group_returned la mi la' mi' bs js bs' js' G w w' dt it r it' r' : lapack_ok la -> lapack_ok la' ->
  engine_world la mi bs js w -> engine_world la' mi' bs' js' w' -> same_group G w w' ->
  (forall c, In c (contacts_of G w) -> mixed w b_fric c = 0) -> w_contacts w <> [] -> w_contacts w' <> [] ->
  engine_point la mi w dt it r -> engine_point la' mi' w' dt it' r' ->
  let q := group_change G (length (w_bodies w)) (vopp (i_x it)) (vopp (i_x it')) in
  kinetic w q q <= (r + r') * (slack (length (w_contacts w)) (i_z it) + slack (length (w_contacts w')) (i_z it') + slip_total w q + norm2 q).
Proof.
  intros HL HL' HW HW' HG Hf Hc Hc' Hp Hp' q.
  destruct (engine_world_sound _ _ _ _ _ HW) as (J0 & HS & _). destruct (engine_world_sound _ _ _ _ _ HW') as (J0' & HS' & _).
  assert (Hf' : forall c, In c (contacts_of G w') -> mixed w' b_fric c = 0).
  { intros c Hi. rewrite <- (sg_contacts _ _ _ HG) in Hi. destruct (in_group G w w' HG c Hi) as (_ & _ & E1 & E2). rewrite <- (mixed_same G w w' HG) by auto. now apply Hf. }
  destruct (point_response la mi bs js w dt HL HW Hc it r _ Hp eq_refl) as (f & err & Ef & Lf & Lx & Pz & Le & Ne & B & HC & L).
  destruct (point_response la' mi' bs' js' w' dt HL' HW' Hc' it' r' _ Hp' eq_refl) as (f' & err' & Ef' & Lf' & Lx' & Pz' & Le' & Ne' & B' & HC' & L').
  assert (Nz : Forall (fun a => 0 <= a) (i_z it)) by (eapply Forall_impl; [|exact Pz]; cbn; intros; lra). assert (Nz' : Forall (fun a => 0 <= a) (i_z it')) by (eapply Forall_impl; [|exact Pz']; cbn; intros; lra).
  pose proof (group_core bs bs' js js' J0 J0' G w w' HS HS' HG r r' dt f f' _ _ _ _ _ _ err err' Ef Ef' Lx Lx' Le Le' Ne Ne' B B' HC HC'
    (returned_near G r w _ _ _ Hf Nz eq_refl L) (returned_near G r' w' _ _ _ Hf' Nz' eq_refl L')) as Q.
  cbv zeta in Q. fold q in Q. eapply Rle_trans; [exact Q|]. apply Rmult_le_compat_l; [pose proof (norm2_nonneg err); pose proof (norm2_nonneg err'); lra|].
  pose proof (pushes_slack (length (w_contacts w)) (i_z it) Nz). pose proof (pushes_slack (length (w_contacts w')) (i_z it') Nz'). lra.
Qed.

(** *** responses of the group and of the others can be combined *)
Lemma combined_in G k x x' i : (i < k)%nat -> v3_at (combined G k x x') i = if G i then v3_at x i else v3_at x' i.
Proof. intros H. unfold combined. now rewrite cat3_at. Qed.
Lemma coulomb_same w w' x x' c l t : mixed w b_rest c = mixed w' b_rest c -> mixed w b_fric c = mixed w' b_fric c -> relative_velocity x c = relative_velocity x' c ->
  relative_velocity (w_v w) c = relative_velocity (w_v w') c -> coulomb w x c l t -> coulomb w' x' c l t.
Proof.
  intros E1 E2 E3 E4 [C1 C2 C3 C4 C5]. unfold normal_velocity, slip_velocity in *. rewrite E1, E3, E4 in *. rewrite E2 in *.
  constructor; unfold normal_velocity, slip_velocity; auto.
Qed.
Lemma total_ext {A} (f g : A -> nat) l : (forall a, In a l -> f a = g a) -> total f l = total g l.
Proof. induction l as [|a l IH]; intros H; [reflexivity|]. cbn [fold_right]. rewrite (H a) by (now left). rewrite IH by (intros b Hb; apply H; now right). reflexivity. Qed.
Lemma group_combined la mi la' mi' bs js bs' js' G w w' dt x imps x' imps' : engine_world la mi bs js w -> engine_world la' mi' bs' js' w' -> same_group G w w' ->
  response w dt x imps -> response w' dt x' imps' -> exists m, response w' dt (combined G (length (w_bodies w')) x x') m.
Proof.
  intros HW HW' HG (f & y & Ef & Lx & (Li & Ly & B) & HC & HL) (f' & y' & Ef' & Lx' & (Li' & Ly' & B') & HC' & HL').
  destruct (engine_world_sound _ _ _ _ _ HW) as (J0 & HS & _). destruct (engine_world_sound _ _ _ _ _ HW') as (J0' & HS' & _).
  set (n := length (w_bodies w)) in *. set (n' := length (w_bodies w')) in *. set (X := combined G n' x x'). set (H := fun i => negb (G i)).
  assert (Lf : length f = (3 * n)%nat) by (apply apply_forces_layout in Ef; apply Ef). assert (Lf' : length f' = (3 * n')%nat) by (apply apply_forces_layout in Ef'; apply Ef').
  pose proof (sg_apart _ _ _ HG) as A. pose proof (sg_apart' _ _ _ HG) as A'. pose proof (apart_neg _ _ A') as AH. change (apart H w') in AH.
  assert (LX : length X = (3 * n')%nat) by (unfold X; apply combined_length).
  assert (XG : forall i, G i = true -> v3_at x i = v3_at X i).
  { intros i Ei. pose proof (group_range G w w' HG i Ei) as Hr. fold n n' in Hr. destruct (Nat.lt_ge_cases i n') as [Hi|Hi]; [unfold X; rewrite combined_in, Ei by exact Hi; reflexivity|].
    rewrite (over_at X n' i LX Hi). apply (over_at x n); [exact Lx|]. destruct (Nat.lt_ge_cases i n) as [H1|H1]; [apply Hr in H1; lia|exact H1]. }
  assert (XH : forall i, H i = true -> v3_at X i = v3_at x' i).
  { intros i Ei. unfold H in Ei. apply negb_true_iff in Ei. destruct (Nat.lt_ge_cases i n') as [Hi|Hi]; [unfold X; rewrite combined_in, Ei by exact Hi; reflexivity|].
    rewrite (over_at X n' i LX Hi). symmetry. now apply (over_at x' n'). }
  (* contacts *)
  assert (CG : Forall2 (fun c im => In c (contacts_of G w') -> coulomb w' X c (fst im) (snd im)) (w_contacts w) imps).
  { eapply Forall2_imp; [|exact HL]. intros c im C Hc. rewrite <- (sg_contacts _ _ _ HG) in Hc. destruct (in_group G w w' HG c Hc) as (_ & _ & E1 & E2).
    eapply coulomb_same; [| | | |exact C]; try (apply (mixed_same G w w' HG); auto); apply relative_same; auto; apply (group_v bs bs' js js' J0 J0' G w w' HS HS' HG); auto. }
  assert (CH : Forall2 (fun c im => In c (contacts_of H w') -> coulomb w' X c (fst im) (snd im)) (w_contacts w') imps').
  { eapply Forall2_imp; [|exact HL']. intros c im C Hc. destruct (out_group G w' c A' Hc) as [E1 E2]. eapply coulomb_same; [reflexivity|reflexivity| |reflexivity|exact C].
    symmetry. apply relative_same; apply XH; unfold H; now apply negb_true_iff. }
  destruct (power_group G w imps _ A CG) as (p & Hp & _ & Ep). destruct (power_group H w' imps' _ AH CH) as (p' & Hp' & _ & Ep').
  rewrite (sg_contacts _ _ _ HG) in Hp.
  destruct (weave_contacts (fun c => G (c_i1 c)) (fun c im => coulomb w' X c (fst im) (snd im)) (w_contacts w') p p') as (m & Hm & Em).
  { eapply Forall2_known; [|exact Hp]. auto. }
  { eapply Forall2_known; [|exact Hp']. auto. }
  exists m.
  (* constraints *)
  destruct (tension_group bs js J0 G w y HS A Ly) as (u & Lu & Eu). destruct (tension_group bs' js' J0' H w' y' HS' AH Ly') as (u' & Lu' & Eu').
  destruct (weave (fun e : jent => G (snd (fst e))) (fun e => length (entry_vel w' [] e)) (w_joints w') u u') as (z & Lz & Ez).
  { rewrite Lu. fold (joints_of G w'). rewrite (sg_joints _ _ _ HG). apply total_ext. intros e He. apply filter_In in He. destruct He as [He E]. rewrite (entry_same G w w' HG [] [] e E); auto. }
  { exact Lu'. }
  exists f', z. split; [exact Ef'|]. split; [exact LX|]. split; [split; [|split]|split].
  - symmetry. apply (Forall2_len _ _ _ Hm).
  - rewrite Lz. rewrite <- (cv_length _ _ _ _ (vzeros (3 * n')) HS') by apply vzeros_length. rewrite cv_entries, flat_map_total. apply total_ext. intros e He. apply entry_vel_length.
  - intros q Lq. fold n' in Lq. pose (g := field G n (v3_at q)). pose (g' := field G n' (v3_at q)). pose (h := field H n' (v3_at q)).
    specialize (B g (field_length _ _ _)). specialize (B' h (field_length _ _ _)).
    assert (Qg : forall i, G i = true -> v3_at g i = v3_at q i). { intros i Ei. unfold g, n. rewrite (fields_same G w w' HG). now apply field_id. }
    assert (Qh : forall i, H i = true -> v3_at h i = v3_at q i) by (intros i Ei; now apply field_id).
    assert (K : forall a a', (forall i, G i = true -> v3_at a i = v3_at a' i) -> kinetic w g a = kinetic w' g' a') by (intros a a' Ha; apply (kinetic_group G w w' HG); exact Ha).
    rewrite (kinetic_parts G w' q X Lq), (kinetic_parts G w' q (w_v w') Lq), (dot_parts G w' q f' Lq Lf'). fold n' g' H h.
    rewrite <- (K x X XG). rewrite <- (K (w_v w) (w_v w')) by (intros i Ei; apply (group_v bs bs' js js' J0 J0' G w w' HS HS' HG i Ei)).
    assert (KH : kinetic w' h X = kinetic w' h x') by (apply (kinetic_ext H w'); intros i Ei _; now apply XH). rewrite KH.
    assert (F0 : dot g f = dot g' f') by (apply (dot_group G w w' HG); auto; intros i Ei; apply (group_force G w w' HG); auto). rewrite <- F0.
    rewrite Em. fold (contacts_of G w'). change (filter (fun c => negb (G (c_i1 c))) (w_contacts w')) with (contacts_of H w').
    assert (P1 : contact_power (contacts_of G w') p q = contact_power (w_contacts w) imps g).
    { unfold g. rewrite Ep. fold g. rewrite (sg_contacts _ _ _ HG). apply power_ext. intros c Hc. rewrite <- (sg_contacts _ _ _ HG) in Hc. destruct (in_group G w w' HG c Hc) as (_ & _ & E1 & E2). apply relative_same; symmetry; auto. }
    assert (P2 : contact_power (contacts_of H w') p' q = contact_power (w_contacts w') imps' h).
    { unfold h. rewrite Ep'. fold h. apply power_ext. intros c Hc. destruct (out_group G w' c A' Hc) as [E1 E2]. apply relative_same; symmetry; apply Qh; unfold H; now apply negb_true_iff. }
    rewrite P1, P2. rewrite cv_entries. rewrite Ez by (intros; apply entry_vel_length). fold (joints_of G w'). change (filter (fun e : jent => negb (G (snd (fst e)))) (w_joints w')) with (joints_of H w').
    assert (T1 : dot u (flat_map (entry_vel w' q) (joints_of G w')) = dot y (constraint_velocity w g)).
    { unfold g, n. rewrite Eu. fold n g. rewrite (sg_joints _ _ _ HG). f_equal. apply flat_map_in. intros e He. apply filter_In in He. destruct He as [He E]. symmetry. apply (entry_same G w w' HG); auto. }
    assert (T2 : dot u' (flat_map (entry_vel w' q) (joints_of H w')) = dot y' (constraint_velocity w' h)).
    { unfold h, n'. rewrite Eu'. fold n' h. f_equal. apply flat_map_in. intros e He. apply filter_In in He. destruct He as [He E]. symmetry. apply (entry_same H w' w' (same_refl _ _ AH)); auto. }
    rewrite T1, T2. rewrite dot_zeros_l in *. lra.
  - apply zeros_forall; [|apply (cv_length _ _ _ _ _ HS'), LX]. rewrite cv_entries. apply flat_map_zero. intros e He. destruct (G (snd (fst e))) eqn:Eg.
    + rewrite <- (entry_same G w w' HG x X e Eg XG) by (now right). assert (He' : In e (w_joints w)).
      { assert (Q : In e (joints_of G w')) by (apply filter_In; auto). rewrite <- (sg_joints _ _ _ HG) in Q. now apply filter_In in Q. }
      exact (still_entry _ _ _ _ _ _ HS HC He').
    + rewrite (entry_same H w' w' (same_refl _ _ AH) X x' e); [exact (still_entry _ _ _ _ _ _ HS' HC' He)|unfold H; now rewrite Eg|exact XH|now left].
  - exact Hm.
Qed.
