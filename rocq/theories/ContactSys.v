(** The contact blocks of the mixed LCP the engine assembles *)
From Coq Require Import List Arith ZArith Bool Reals Lra Lia.
From Verif Require Import Num Tensor Utils Bodies Forces Constraints Contacts World Lapack Pdipm Lcp Engines Spec JointSpec EngineSpec
     RBase ResFacts LinAlg LapackSpec KktSpec PdipmSpec WorldFacts HandlerFacts LayoutFacts HistFacts SysFacts RewindFacts JointFacts JeFacts
     CacheFacts BodyReach PdipmFacts PdipmLoop SolverFacts EngineFacts.
Import ListNotations.
Open Scope R_scope.

Definition in_range (nb : nat) (c : contact R) : Prop := c_i1 c <> c_i2 c /\ (c_i1 c < nb)%nat /\ (c_i2 c < nb)%nat.

(** *** Jacobians *)
Lemma contact_row nb c d x : in_range nb c -> length x = (3 * nb)%nat ->
  let r := row_put (row_put (vzeros (3 * nb)) (3 * c_i1 c) (jc_row (c_p1 c) d)) (3 * c_i2 c) (vopp (jc_row (c_p2 c) d)) in
  length r = (3 * nb)%nat /\ dot r x = component d (relative_velocity x c).
Proof.
  intros (H1 & H2 & H3) Hx. cbv zeta.
  change (jc_row (c_p1 c) d) with (v3list (cross_2d (c_p1 c) d, (fst d, snd d)) : vecR).
  change (vopp (jc_row (c_p2 c) d)) with (v3list (- cross_2d (c_p2 c) d, (- fst d, - snd d)) : vecR).
  split; [apply put2_length; auto|]. rewrite dot_put2 by auto.
  unfold d3, component, relative_velocity, point_velocity, v2sub, cross_2d. rnum. cbn [fst snd]. ring.
Qed.
Lemma mv_Jc w x : Forall (in_range (length (w_bodies w))) (w_contacts w) -> length x = (3 * length (w_bodies w))%nat ->
  mv (Jc w) x = map (fun c => component (c_normal c) (relative_velocity x c)) (w_contacts w).
Proof.
  intros H Hx. unfold Jc, mv. rewrite map_map. apply map_ext_in. intros c Hc. rewrite Forall_forall in H.
  apply (contact_row (length (w_bodies w)) c (c_normal c) x); auto.
Qed.
Lemma wf_Jc w : Forall (in_range (length (w_bodies w))) (w_contacts w) -> wf (length (w_contacts w)) (3 * length (w_bodies w)) (Jc w).
Proof.
  intros H. split; [apply map_length|]. unfold Jc. rewrite Forall_map. eapply Forall_impl; [|exact H]. intros c Hc.
  apply (contact_row (length (w_bodies w)) c (c_normal c) (vzeros (3 * length (w_bodies w)))); auto. apply vzeros_length.
Qed.
Definition jf_all w : matR := flat_map (jf_rows (length (w_bodies w))) (w_contacts w).
Lemma Jf_inv w jf : w_contacts w <> [] -> Jf w = Ok jf -> w_fric_dirs w = 2%nat /\ jf = jf_all w.
Proof.
  unfold Jf, jf_all. destruct (w_contacts w); [congruence|]. intros _. destruct (Nat.eqb_spec (w_fric_dirs w) 2); [|discriminate].
  intros H. injection H as <-. auto.
Qed.
Lemma mv_jf w x : Forall (in_range (length (w_bodies w))) (w_contacts w) -> length x = (3 * length (w_bodies w))%nat ->
  mv (jf_all w) x = flat_map (fun c => [component (tangent (c_normal c)) (relative_velocity x c);
                                        - component (tangent (c_normal c)) (relative_velocity x c)]) (w_contacts w).
Proof.
  intros H Hx. unfold jf_all. rewrite mv_flat_map. rewrite !flat_map_concat_map. f_equal. apply map_ext_in. intros c Hc. rewrite Forall_forall in H.
  unfold jf_rows. cbn [map mv]. apply f_equal2; [|apply f_equal2; [|reflexivity]].
  - exact (proj2 (contact_row (length (w_bodies w)) c (left_orthogonal (c_normal c)) x (H c Hc) Hx)).
  - etransitivity; [exact (proj2 (contact_row (length (w_bodies w)) c (v2opp (left_orthogonal (c_normal c))) x (H c Hc) Hx))|].
    unfold component, left_orthogonal, tangent, v2opp. rnum. cbn [fst snd]. ring.
Qed.
Lemma wf_jf w : Forall (in_range (length (w_bodies w))) (w_contacts w) -> wf (2 * length (w_contacts w)) (3 * length (w_bodies w)) (jf_all w).
Proof.
  intros H. rewrite Nat.mul_comm. apply wf_flat_map. intros c Hc. rewrite Forall_forall in H. specialize (H c Hc). unfold jf_rows. cbn [map].
  split; [reflexivity|]. repeat constructor; apply (contact_row (length (w_bodies w)) c _ (vzeros (3 * length (w_bodies w)))); auto; apply vzeros_length.
Qed.

(** *** E: both friction directions of a contact share its slack *)
Lemma E_cons nc : E_mat 2 (S nc) = ((1 : R) :: vzeros nc) :: (1 :: vzeros nc) :: map (cons 0) (E_mat 2 nc).
Proof.
  unfold E_mat. replace (2 * S nc)%nat with (S (S (2 * nc))) by lia. cbn [seq map].
  assert (Z : forall n k, (0 < k)%nat -> map (fun j => if Nat.eqb 0 j then 1 else 0) (seq k n) = (vzeros n : vecR)).
  { induction n as [|n IH]; intros k Hk; [reflexivity|]. cbn [seq map]. destruct (Nat.eqb_spec 0 k); [lia|]. unfold vzeros. cbn [repeat]. f_equal. apply IH. lia. }
  change (0 / 2)%nat with 0%nat in *. change (1 / 2)%nat with 0%nat. cbn [Nat.eqb]. apply f_equal2; [|apply f_equal2].
  - apply f_equal2; [reflexivity|]. apply (Z nc 1%nat). lia.
  - apply f_equal2; [reflexivity|]. apply (Z nc 1%nat). lia.
  - rewrite <- (seq_shift (2 * nc) 1), <- (seq_shift (2 * nc) 0), !map_map. apply map_ext. intros r.
    assert (E : (S (S r) / 2 = S (r / 2))%nat).
    { replace (S (S r)) with (r + 1 * 2)%nat by lia. rewrite Nat.div_add by lia. lia. }
    rewrite E. apply f_equal2; [reflexivity|]. rewrite <- seq_shift, map_map. reflexivity.
Qed.
Definition twice (g : vecR) : vecR := flat_map (fun a => [a; a]) g.
Fixpoint pair_sums (b : vecR) : vecR := match b with x :: y :: b' => x + y :: pair_sums b' | _ => [] end.
Lemma wf_E nc : wf (2 * nc) nc (E_mat 2 nc).
Proof.
  unfold E_mat. apply wf_map_seq. intros i _. now rewrite map_length, seq_length.
Qed.
Lemma mv_map_cons (a : R) (A : matR) x g : mv (map (cons a) A) (g :: x) = map (fun b => a * g + b) (mv A x).
Proof. unfold mv. rewrite !map_map. apply map_ext. intros r. apply dot_cons. Qed.
Lemma mv_E nc g : length g = nc -> mv (E_mat 2 nc) g = twice g.
Proof.
  revert nc; induction g as [|a g IH]; intros nc <-; [reflexivity|]. cbn [length]. rewrite E_cons, !mv_cons, mv_map_cons, IH by reflexivity.
  rewrite dot_cons, dot_zeros_l. cbn [twice flat_map app]. apply f_equal2; [ring|]. apply f_equal2; [ring|].
  rewrite <- (map_id (flat_map _ g)). apply map_ext. intros. ring.
Qed.
Lemma twice_length g : length (twice g) = (2 * length g)%nat.
Proof. unfold twice. induction g; cbn in *; lia. Qed.
Lemma pair_sums_length b nc : length b = (2 * nc)%nat -> length (pair_sums b) = nc.
Proof.
  revert b; induction nc as [|nc IH]; intros b Hb; [destruct b; [reflexivity|cbn in Hb; lia]|].
  destruct b as [|x [|y b]]; cbn in Hb; try lia. cbn. rewrite IH; lia.
Qed.
Lemma dot_twice nc b g : length g = nc -> length b = (2 * nc)%nat -> dot b (twice g) = dot (pair_sums b) g.
Proof.
  revert b nc; induction g as [|a g IH]; intros b nc <- Hb; [cbn; now rewrite !dot_nil_r|].
  destruct b as [|x [|y b]]; cbn in Hb; try lia. cbn [twice flat_map app pair_sums]. rewrite !dot_cons. rewrite <- (IH b (length g)) by lia. unfold twice. ring.
Qed.
Lemma dot_unit nc (x y : vecR) : length x = nc -> length y = nc -> (forall g, length g = nc -> dot x g = dot y g) -> x = y.
Proof.
  intros Hx Hy H. apply vsub_diag; [lia|].
  pose proof (dot_self_zero (vsub x y)) as Z. rewrite vsub_length, Hx, Hy, Nat.min_id in Z. rewrite Hx. apply Z.
  rewrite dot_vsub_l by lia. rewrite H by (rewrite vsub_length; lia). ring.
Qed.
Lemma vm_E nc b : length b = (2 * nc)%nat -> vm nc b (E_mat 2 nc) = pair_sums b.
Proof.
  intros Hb. apply (dot_unit nc); [apply vm_length|now apply pair_sums_length|]. intros g Hg.
  rewrite (dot_vm (2 * nc) nc) by (auto using wf_E). rewrite mv_E by auto. now apply (dot_twice nc).
Qed.

(** *** F *)
Lemma mv_row_put m c (A : matR) z k : (forall r, In r A -> length r = k) -> (c + k <= m)%nat -> length z = m ->
  mv (map (row_put (vzeros m) c) A) z = mv A (firstn k (skipn c z)).
Proof.
  intros H Hc Hz. unfold mv. rewrite map_map. apply map_ext_in. intros r Hr. pose proof (H r Hr) as L. rewrite dot_put_zeros by (rewrite ?L; auto). now rewrite L.
Qed.
Lemma mv_row_put2 m c1 c2 (A B : matR) z k1 k2 : (forall r, In r A -> length r = k1) -> (forall r, In r B -> length r = k2) ->
  length A = length B -> (c1 + k1 <= c2)%nat -> (c2 + k2 <= m)%nat -> length z = m ->
  mv (map2 (fun r b => row_put r c2 b) (map (row_put (vzeros m) c1) A) B) z = vadd (mv A (firstn k1 (skipn c1 z))) (mv B (firstn k2 (skipn c2 z))).
Proof.
  intros HA HB HL Hc1 Hc2 Hz. revert B HB HL; induction A as [|a A IH]; intros [|b B] HB HL; try discriminate; [reflexivity|].
  cbn [map map2]. rewrite !mv_cons. unfold vadd at 1. cbn [vmap2]. fold (vadd (mv A (firstn k1 (skipn c1 z))) (mv B (firstn k2 (skipn c2 z)))).
  apply f_equal2; [|apply IH; auto; [intros; apply HA; now right|intros; apply HB; now right]].
  pose proof (HA a (or_introl eq_refl)) as La. pose proof (HB b (or_introl eq_refl)) as Lb.
  assert (L1 : length (row_put (vzeros m) c1 a : vecR) = m) by (rewrite row_put_length; rewrite vzeros_length; lia).
  rewrite row_put_add.
  - rewrite dot_vadd_l, L1.
    + rewrite !dot_put_zeros by (rewrite ?La, ?Lb; lia). now rewrite La, Lb.
    + rewrite L1, row_put_length; rewrite vzeros_length; lia.
  - rewrite L1, Lb. lia.
  - intros j Hj. rewrite vget_row_put by (rewrite vzeros_length; lia). rewrite vget_zeros, La. destruct (Nat.leb_spec c1 j), (Nat.ltb_spec j (c1 + k1)); cbn [andb]; auto. lia.
Qed.
Lemma map2_mzeros c m (B : matR) : map2 (fun r b => row_put r c b) (mzeros (length B) m) B = map (row_put (vzeros m) c) B.
Proof. unfold mzeros. apply (map2_repeat (fun r b => row_put r c b)). Qed.
Lemma wf_In m n (A : matR) r : wf m n A -> In r A -> length r = n.
Proof. intros [_ H]. rewrite Forall_forall in H. apply H. Qed.
Lemma wf_map2_put k m c l (A B : matR) : wf k m A -> wf k l B -> (c + l <= m)%nat -> wf k m (map2 (fun r b => row_put r c b) A B).
Proof.
  intros HA HB Hc. revert k B HA HB; induction A as [|a A IH]; intros [|k] [|b B] [L1 F1] [L2 F2]; try discriminate; [split; constructor|].
  apply Forall_cons_iff in F1, F2. cbn [map2]. apply wf_cons. split; [rewrite row_put_length; unfold vec in *; lia|].
  apply IH; split; try tauto; cbn in *; lia.
Qed.
Lemma blk_put_rows (A1 A2 A3 B : matR) r c : length A1 = r -> length A2 = length B ->
  blk_put (A1 ++ A2 ++ A3) r c B = A1 ++ map2 (fun r b => row_put r c b) A2 B ++ A3.
Proof. intros <-. apply blk_put_app. Qed.
Section F.
Variables (nc : nat) (muv : vecR).
Hypothesis Hmu : length muv = nc.
Notation m := (nc + 2 * nc + nc)%nat.
Notation F := (lcp_F 2 nc (E_mat 2 nc) (mdiag muv)).
Lemma lcp_F_rows : F = mzeros nc m ++ map (row_put (vzeros m) (nc + 2 * nc)) (E_mat 2 nc) ++
  map2 (fun r b => row_put r nc b) (map (row_put (vzeros m) 0) (mdiag muv)) (mopp (mtr nc (E_mat 2 nc))).
Proof.
  assert (LE : length (E_mat 2 nc) = (2 * nc)%nat) by apply wf_E.
  assert (Lm : length (mdiag muv) = nc) by (rewrite mdiag_length; auto).
  assert (LT : length (mopp (mtr nc (E_mat 2 nc))) = nc) by (rewrite mopp_length; apply mtr_length).
  assert (L0 : length (mzeros nc m : matR) = nc) by apply mzeros_length.
  assert (L1 : length (map (row_put (vzeros m) (nc + 2 * nc)) (E_mat 2 nc)) = (2 * nc)%nat) by (rewrite map_length; auto).
  unfold lcp_F. cbv zeta.
  assert (E0 : (mzeros m m : matR) = mzeros nc m ++ mzeros (length (E_mat 2 nc)) m ++ mzeros nc m).
  { rewrite LE, (mzeros_app (nc + 2 * nc) nc m), (mzeros_app nc (2 * nc) m), <- app_assoc. reflexivity. }
  rewrite E0. rewrite (blk_put_rows _ _ _ _ nc) by (auto; apply mzeros_length). rewrite map2_mzeros.
  set (P := mzeros nc m ++ map (row_put (vzeros m) (nc + 2 * nc)) (E_mat 2 nc)).
  assert (LP : length P = (nc + 2 * nc)%nat). { unfold P. rewrite app_length. unfold mat, vec in *. lia. }
  assert (E1 : mzeros nc m ++ map (row_put (vzeros m) (nc + 2 * nc)) (E_mat 2 nc) ++ mzeros nc m = P ++ mzeros (length (mdiag muv)) m ++ []).
  { unfold P. now rewrite Lm, app_nil_r, <- app_assoc. }
  unfold mat, vec in *. rewrite E1. rewrite (blk_put_rows P _ _ (mdiag muv) (nc + 2 * nc) 0) by (auto; apply mzeros_length). rewrite map2_mzeros.
  rewrite (blk_put_rows P _ _ (mopp (mtr nc (E_mat 2 nc))) (nc + 2 * nc) nc) by (rewrite ?map_length; unfold mat, vec in *; congruence).
  unfold P. now rewrite app_nil_r, <- app_assoc.
Qed.
Lemma mv_F lam b g : length lam = nc -> length b = (2 * nc)%nat -> length g = nc ->
  mv F (lam ++ b ++ g) = vzeros nc ++ twice g ++ vsub (vmul muv lam) (pair_sums b).
Proof.
  intros Hl Hb Hg. rewrite lcp_F_rows, !mv_app, mv_mzeros. f_equal.
  assert (Lz : length (lam ++ b ++ g) = m) by (rewrite !app_length; unfold vec in *; lia).
  f_equal.
  - rewrite (mv_row_put m (nc + 2 * nc) _ _ nc); [|intros r Hr; exact (wf_In _ _ _ _ (wf_E nc) Hr)|lia|exact Lz].
    assert (E : firstn nc (skipn (nc + 2 * nc) (lam ++ b ++ g)) = g).
    { rewrite app_assoc, skipn_app. rewrite skipn_all2 by (rewrite app_length; unfold vec in *; lia). cbn [app]. rewrite app_length.
      replace (nc + 2 * nc - (length lam + length b))%nat with 0%nat by (unfold vec in *; lia). cbn [skipn]. apply firstn_all2. unfold vec in *; lia. }
    rewrite E. now apply mv_E.
  - rewrite (mv_row_put2 m 0 nc _ _ _ nc (2 * nc)); [| | | | | |exact Lz]; try lia.
    + assert (E1 : firstn nc (skipn 0 (lam ++ b ++ g)) = lam).
      { cbn [skipn]. rewrite firstn_app, firstn_all2 by (unfold vec in *; lia). replace (nc - length lam)%nat with 0%nat by (unfold vec in *; lia). cbn. apply app_nil_r. }
      assert (E2 : firstn (2 * nc) (skipn nc (lam ++ b ++ g)) = b).
      { rewrite skipn_app, skipn_all2 by (unfold vec in *; lia). replace (nc - length lam)%nat with 0%nat by (unfold vec in *; lia). cbn [skipn app].
        rewrite firstn_app, firstn_all2 by (unfold vec in *; lia). replace (2 * nc - length b)%nat with 0%nat by (unfold vec in *; lia). cbn. apply app_nil_r. }
      rewrite E1, E2, mv_mopp. rewrite mv_mdiag by (unfold vec in *; lia). change (mv (mtr nc (E_mat 2 nc)) b) with (vm nc b (E_mat 2 nc) : vecR). rewrite vm_E by auto. now rewrite vsub_vadd.
    + intros r Hr. rewrite <- Hmu. exact (wf_In _ _ _ _ (wf_mdiag muv) Hr).
    + intros r Hr. refine (wf_In nc _ _ _ _ Hr). apply wf_mopp, wf_mtr, wf_E.
    + rewrite mdiag_length, mopp_length, mtr_length. exact Hmu.
Qed.
Lemma wf_F : wf m m F.
Proof.
  rewrite lcp_F_rows. replace m with (nc + (2 * nc + nc))%nat at 1 by lia. apply wf_app; [apply wf_mzeros|]. apply wf_app.
  - split; [rewrite map_length; apply wf_E|]. rewrite Forall_map. eapply Forall_impl; [|apply wf_E]. intros r Hr. cbv beta in Hr. rewrite row_put_length; rewrite vzeros_length; unfold vec in *; lia.
  - assert (W1 : wf nc m (map (row_put (vzeros m) 0) (mdiag muv))).
    { split; [rewrite map_length, mdiag_length; exact Hmu|]. rewrite Forall_map. eapply Forall_impl; [|apply wf_mdiag]. intros r Hr. cbv beta in Hr. rewrite row_put_length; rewrite vzeros_length; unfold vec in *; lia. }
    assert (W2 : wf nc (2 * nc) (mopp (mtr nc (E_mat 2 nc)))) by (apply wf_mopp, wf_mtr, wf_E).
    apply (wf_map2_put nc m nc (2 * nc)); auto. lia.
Qed.
End F.
