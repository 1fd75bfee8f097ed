(** Contacts of whole simulations, for C87 *)
From Coq Require Import List Arith ZArith Bool Reals Lra Lia Permutation.
From Verif Require Import Num Tensor Utils Bodies Forces Constraints Contacts World Spec ResFacts RBase GeoSpec BodySpec ContactSpec FreshSpec DetectSpec
     WorldFacts BodyFacts RigidFacts FreshFacts HandlerFacts SatFacts PlaneFacts ContactFacts OverlapFacts CollideFacts DetectFacts FloatEx RealEx ContactEx DetectEx.
Import ListNotations.
Open Scope R_scope.

Lemma simulated_current gf o w : simulated gf o w -> contacts_current o (diff_handler gf o) w.
Proof. intros (fuel & e & heap & bodies & cons & dt & eps & tol & fd & ps & st & w0 & ops & _ & H0 & Hx). eapply exec_current; [apply diff_handler_frame| |exact Hx]. eapply init_current; [apply diff_handler_frame|exact H0]. Qed.
Theorem poses_alone gf gf' o o' w w' : simulated gf o w -> simulated gf' o' w' -> broadphase_sane o -> same_pairs o o' ->
  map still (w_bodies w') = map still (w_bodies w) -> w_eps w' = w_eps w ->
  (forall i j b1 b2, i <> j -> nth_error (w_bodies w) i = Some b1 -> nth_error (w_bodies w) j = Some b2 -> clear_cut b1 b2) ->
  Permutation (w_contacts w) (w_contacts w').
Proof. intros H H' Hs Hp HS He HC. eapply current_same; eauto using simulated_current. Qed.
Lemma forget_pv (b b' : body R) : forget b = forget b' -> b_p b = b_p b' /\ b_v b = b_v b'.
Proof. destruct b as [i k p v m j f r e fs g], b' as [i' k' p' v' m' j' f' r' e' fs' g']. unfold forget. cbn. destruct k, k'; cbn; intros H; inversion H; auto. Qed.
Lemma forget_map (bs bs' : list (body R)) : map forget bs' = map forget bs -> map b_p bs' = map b_p bs /\ map b_v bs' = map b_v bs.
Proof.
  revert bs'. induction bs as [|b bs IH]; intros [|b' bs'] H; try discriminate; [auto|]. cbn [map] in *. assert (E : forget b' = forget b /\ map forget bs' = map forget bs) by (split; congruence). destruct E as [E1 E2].
  destruct (forget_pv _ _ E1) as [-> ->]. destruct (IH _ E2) as [-> ->]. auto.
Qed.
Theorem look_again gf gf' o o' w w' : simulated gf o w -> broadphase_sane o -> same_pairs o o' ->
  (forall i j b1 b2, i <> j -> nth_error (w_bodies w) i = Some b1 -> nth_error (w_bodies w) j = Some b2 -> clear_cut b1 b2) ->
  find_contacts o' (diff_handler gf' o') w = Ok w' ->
  Permutation (w_contacts w) (w_contacts w') /\ map b_p (w_bodies w') = map b_p (w_bodies w) /\ map b_v (w_bodies w') = map b_v (w_bodies w).
Proof.
  intros H Hs Hp HC Hf. pose proof (find_contacts_frame _ _ _ _ (diff_handler_frame _ _) Hf) as F. split; [|now apply forget_map].
  apply (current_same gf gf' o o' w w'); auto using simulated_current.
  - eapply find_contacts_current; [apply diff_handler_frame|exact Hf].
  - now apply map_still_forget.
  - apply find_contacts_fold in Hf. destruct Hf as (cs & bs & clk & _ & ->). reflexivity.
Qed.

Lemma simulated_set_v gf o w v w' : simulated gf o w -> set_v w v = Ok w' -> simulated gf o w'.
Proof.
  intros (fuel & e & heap & bodies & cons & dt & eps & tol & fd & ps & st & w0 & ops & A & H0 & Hx) Hv.
  exists fuel, e, heap, bodies, cons, dt, eps, tol, fd, ps, st, w0, (ops ++ [OSetV v]). split; [exact A|]. split; [exact H0|].
  assert (G : forall l (x : world R), exec fuel o (diff_handler gf o) e l x = Ok w -> exec fuel o (diff_handler gf o) e (l ++ [OSetV v]) x = Ok w').
  { clear - Hv. induction l as [|c l IH]; intros x Hx.
    - cbn in Hx. injection Hx as ->. cbn [app]. cbn. rewrite Hv. reflexivity.
    - cbn [app]. destruct c; cbn in Hx |- *; bind_inv Hx as y Ey; rewrite Ey; cbn [bind]; now apply IH. }
  now apply G.
Qed.
Lemma still_plain id x y w h (b a : body R) : plain_rect id x y w h b -> still b = still a -> b_pos a = (x, y) /\ is_circle a = false /\ b_verts a = corners w h.
Proof. intros H S. destruct (still_shape _ _ S) as (_ & A & B & _ & C & _). rewrite <- A, <- B, <- C. split; [apply (pr_pos _ _ _ _ _ _ H)|]. split; [eapply plain_circle; eauto|eapply plain_verts; eauto]. Qed.
Lemma clear_still (b1 b2 a1 a2 : body R) : still b1 = still a1 -> still b2 = still a2 -> clear_cut b1 b2 -> clear_cut a1 a2.
Proof.
  intros S1 S2 C. destruct (still_shape _ _ S1) as (_ & X1 & X2 & _ & X3 & _). destruct (still_shape _ _ S2) as (_ & Y1 & Y2 & _ & Y3 & _).
  unfold clear_cut, one_way_out, one_face, offset, rel in *. rewrite X1, X2, X3, Y1, Y2, Y3 in C. exact C.
Qed.
Lemma stacked_case : exists w w' w2,
  simulated 18 pair_oracle w /\ simulated 18 pair_oracle w' /\ broadphase_sane (T := R) pair_oracle /\ same_pairs pair_oracle pair_oracle /\
  map still (w_bodies w') = map still (w_bodies w) /\ w_eps w' = w_eps w /\
  (forall i j b1 b2, i <> j -> nth_error (w_bodies w) i = Some b1 -> nth_error (w_bodies w) j = Some b2 -> clear_cut b1 b2) /\
  find_contacts pair_oracle (diff_handler 18 pair_oracle) w = Ok w2 /\ w_contacts w <> [] /\ w_v w' <> w_v w.
Proof.
  destruct (rect_ex 0 0 0 2 2) as (b1 & H1); [lra|lra|]. destruct (rect_ex 1 (1/4) (15/8) 2 2) as (b2 & H2); [lra|lra|].
  assert (M1 : manageable 18 b1) by (eapply plain_manageable; eauto; lra). assert (M2 : manageable 18 b2) by (eapply plain_manageable; eauto; lra).
  destruct (two_world b1 b2) as (w & Hs & Hb & He & Hc); [eapply plain_available; eauto|eapply plain_available; eauto|auto|auto|].
  destruct (two_world_nth _ _ _ Hb) as (a1 & a2 & Ew & S1 & S2).
  destruct (find_contacts_total 18 pair_oracle w pair_sane) as (w2 & E2).
  { rewrite Ew. apply Forall_cons; [exact (still_manageable _ _ _ S1 M1)|]. apply Forall_cons; [exact (still_manageable _ _ _ S2 M2)|constructor]. }
  set (v := [1; 1; 1; 1; 1; vget (w_v w) 5 + 1]). assert (Ev : exists w', set_v w v = Ok w') by (unfold set_v; rewrite Ew; cbn; eauto). destruct Ev as [w' Ev].
  exists w, w', w2. split; [exact Hs|]. split; [exact (simulated_set_v _ _ _ _ _ Hs Ev)|]. split; [apply pair_sane|]. split; [intros k k' gs; reflexivity|].
  pose proof Ev as Ev'. apply set_v_inv in Ev'. destruct Ev' as [_ Ev'].
  split; [rewrite Ev'; cbn; rewrite (mapi_map _ still still); [reflexivity|intros; apply still_with_v]|]. split; [rewrite Ev'; reflexivity|].
  assert (C12 : clear_cut a1 a2). { apply (clear_still b1 b2); auto. eapply stacked_clear; eauto. rewrite !Rabs_pos_eq by lra. lra. }
  assert (C21 : clear_cut a2 a1). { apply (clear_still b2 b1); auto. eapply stacked_clear; eauto. rewrite !Rabs_left by lra. lra. }
  split; [|split; [exact E2|split]].
  - rewrite Ew. intros [|[|i]] [|[|j]] c1 c2 Hne N1 N2; cbn in N1, N2; try congruence; try (destruct i; discriminate); try (destruct j; discriminate); injection N1 as <-; injection N2 as <-; auto.
  - destruct (plain_convex _ _ _ _ _ _ H1) as [T1 I1]; [lra|lra|]. destruct (plain_convex _ _ _ _ _ _ H2) as [T2 I2]; [lra|lra|].
    pose proof (plain_circle _ _ _ _ _ _ H1) as C1. pose proof (plain_circle _ _ _ _ _ _ H2) as C2. pose proof (plain_verts _ _ _ _ _ _ H1) as V1. pose proof (plain_verts _ _ _ _ _ _ H2) as V2.
    destruct Hc as (k & calls & P1 & P2 & P3). rewrite Ew in P1. cbn in P1. destruct calls as [|[[i j] new] [|? ?]]; try discriminate. cbn in P1. injection P1 as -> ->.
    rewrite P2. cbn [flat_map snd]. rewrite app_nil_r. destruct (P3 0%nat 1%nat new (or_introl eq_refl)) as (clk & bs0 & bs1 & clk1 & Q1 & Q2). rewrite Ew in Q1.
    destruct bs0 as [|d1 [|d2 [|? ?]]]; try discriminate. cbn [map] in Q1. assert (D1 : still b1 = still d1) by congruence. assert (D2 : still b2 = still d2) by congruence.
    destruct (still_shape _ _ D1) as (_ & W1 & W2 & _ & W3 & W4). destruct (still_shape _ _ D2) as (_ & Z1 & Z2 & _ & Z3 & Z4).
    eapply (diff_handler_close 18 pair_oracle (w_eps w) clk [d1; d2] 0 1 d1 d2 new bs1 clk1 eq_refl eq_refl); [| | | |rewrite He; lra| |exact Q2].
    + unfold excluded. rewrite <- Z4, (pr_nc _ _ _ _ _ _ H2). intros [].
    + eapply still_tidy; [exact D1|]. unfold tidy. now rewrite C1.
    + eapply still_tidy; [exact D2|]. unfold tidy. now rewrite C2.
    + intros _ _. rewrite <- W3, <- Z3. auto.
    + apply (still_touching (w_eps w) b1 d1 b2 d2 D1 D2). unfold touching. rewrite C1, C2. cbn [orb andb].
      assert (PP : body_points b1 (1/4, 15/16) /\ body_points b2 (1/4, 15/16)).
      { split.
        - apply polygon_points; auto. rewrite V1, (pr_pos _ _ _ _ _ _ H1). exists [(5/8) * (31/32); (3/8) * (31/32); (3/8) * (1/32); (5/8) * (1/32)]. split; [reflexivity|]. split; [repeat constructor; lra|]. split; [cbn; lra|]. unfold wsum, corners. v2unfold. cbn. split; lra.
        - apply polygon_points; auto. rewrite V2, (pr_pos _ _ _ _ _ _ H2). exists [(1/2) * (1/32); (1/2) * (1/32); (1/2) * (31/32); (1/2) * (31/32)]. split; [reflexivity|]. split; [repeat constructor; lra|]. split; [cbn; lra|]. unfold wsum, corners. v2unfold. cbn. split; lra. }
      destruct PP as [PP1 PP2]. first [exists (1/4, 15/16); split; assumption | exists (1/4, 15/16), (1/4, 15/16); split; [assumption|]; split; [assumption|]; unfold dist; cbn [fst snd]; replace ((1/4 - 1/4) * (1/4 - 1/4) + (15/16 - 15/16) * (15/16 - 15/16)) with 0 by ring; rewrite sqrt_0, He; lra].
  - rewrite Ev'. cbn. intros E. pose proof (f_equal (fun l => vget l 5) E) as E5. unfold v in E5. cbn in E5. lra.
Qed.
