(** Concrete bodies and worlds for the non-vacuity examples about contacts *)
From Coq Require Import List Arith ZArith Lia Bool Reals Lra.
From Verif Require Import Num Tensor Utils Bodies Forces Constraints Contacts World Lapack LapackRef Engines
     Spec GeoSpec BodySpec ContactSpec FreshSpec ResFacts RBase BodyFacts RigidFacts GeomFacts BodyReach WorldFacts HandlerFacts FreshFacts LayoutFacts
     PlaneFacts SupportFacts SatFacts ClipFacts GjkFacts GjkLoop GjkTerm ContactFacts HellyFacts OverlapFacts CollideFacts
     FloatEx RealEx.
Import ListNotations.
Open Scope R_scope.

(** an axis-aligned rectangle *)
Record plain_rect (id : nat) (x y w h : R) (b : body R) : Prop := {
  pr_constructed : constructed b;
  pr_kind : b_kind b = KRect (w, h) (corners w h) 0;
  pr_pos : b_pos b = (x, y);
  pr_id : b_id b = id;
  pr_eps : b_eps b = 1/10;
  pr_nc : g_no_contact (b_geom b) = [] }.
Lemma rect_ex id x y w h : 0 < w -> 0 < h -> exists b, plain_rect id x y w h b.
Proof.
  intros Hw Hh. assert (E : exists b, rect_init id [x; y] (w, h) [0; 0; 0] 1 (1/2) (1/2) (1/10) = Ok b /\ g_no_contact (b_geom b) = []).
  { unfold rect_init, hull_init_gen. rewrite rect_verts_corners. cbn [to_v3 bind length corners Nat.ltb Nat.leb andb Nat.eqb].
    assert (C : is_clockwise (corners (fst (w, h)) (snd (w, h))) = true).
    { apply is_clockwise_area. rewrite corners_area. cbn. nra. }
    unfold corners in *. rewrite C. cbn. eexists. split; [reflexivity|]. reflexivity. }
  destruct E as (b & E & N). exists b. pose proof (rect_init_inv _ _ _ _ _ _ _ _ _ E) as (p & Ep & _ & Hp & _ & _ & Hv & Hk & Hi & _ & _ & He & _).
  assert (Ep' : p = (0, (x, y))) by (cbn in Ep; congruence). rewrite Ep' in Hp. clear p Ep Ep'. cbn [fst snd] in *. assert (Hr : b_rot b = 0) by (unfold b_rot; rewrite Hp; reflexivity).
  rewrite Hr, map_rotate_0 in Hv. rewrite Hv in Hk. constructor; auto.
  - right; right. do 8 eexists. exact E.
  - unfold b_pos. rewrite Hp. reflexivity.
Qed.
Lemma plain_available id x y w h b : plain_rect id x y w h b -> available b.
Proof. intros H. exists b, []. split; [apply (pr_constructed _ _ _ _ _ _ H)|reflexivity]. Qed.
Lemma plain_reachable id x y w h b : plain_rect id x y w h b -> reachable_body b.
Proof. intros H. apply RBavailable. eapply plain_available; eauto. Qed.
Lemma plain_verts id x y w h b : plain_rect id x y w h b -> b_verts b = corners w h.
Proof. intros H. unfold b_verts. now rewrite (pr_kind _ _ _ _ _ _ H). Qed.
Lemma plain_circle id x y w h b : plain_rect id x y w h b -> is_circle b = false.
Proof. intros H. unfold is_circle. now rewrite (pr_kind _ _ _ _ _ _ H). Qed.
Lemma plain_convex id x y w h b : plain_rect id x y w h b -> 0 < w -> 0 < h -> strictly_convex (b_verts b) /\ inscribed (b_verts b).
Proof. intros H W K. eapply (rect_tidy b (w, h) (corners w h) 0%nat); auto; [eapply plain_reachable; eauto|apply (pr_kind _ _ _ _ _ _ H)]. Qed.
Lemma corner_bound w h v : 0 < w -> 0 < h -> In v (corners w h) -> dist v (0, 0) <= w / 2 + h / 2.
Proof.
  intros Hw Hh Hv. unfold dist. rewrite <- (sqrt_Rsqr (w / 2 + h / 2)) by lra. apply sqrt_le_1_alt. unfold Rsqr, corners in *.
  repeat (destruct Hv as [<-|Hv]; [cbn [fst snd]; nra|]). destruct Hv.
Qed.
Lemma plain_manageable id x y w h b : plain_rect id x y w h b -> 0 < w <= 10 -> 0 < h <= 10 -> manageable 18 b.
Proof.
  intros H [W W'] [K K']. destruct (plain_convex _ _ _ _ _ _ H W K) as [Sc _]. pose proof (plain_circle _ _ _ _ _ _ H) as C.
  assert (T : tidy b) by (unfold tidy; now rewrite C). split; [apply reachable_supported; auto; eapply plain_reachable; eauto|]. split; [exact T|]. split.
  - unfold in_range. rewrite C, (plain_verts _ _ _ _ _ _ H). intros v Hv. pose proof (corner_bound w h v W K Hv). assert (10 <= 10 ^ 9) by (cbn [pow]; lra). lra.
  - unfold gjk_rounds. rewrite (plain_verts _ _ _ _ _ _ H). cbn. lia.
Qed.
(** a circle of radius r *)
Definition ball (id : nat) (x y r : R) : body R := get dummy_body (circle_init id [x; y] r [0; 0; 0] 1 (1/2) (1/2) (1/10)).
Lemma ball_available id x y r : available (ball id x y r).
Proof. exists (ball id x y r), []. split; [left|reflexivity]. exists id, [x; y], r, [0; 0; 0], 1, (1/2), (1/2), (1/10). reflexivity. Qed.
Lemma ball_manageable id x y r : 0 <= r <= 10 -> manageable 18 (ball id x y r).
Proof. intros [H H']. split; [discriminate|]. split; [exact H|]. split; [|cbn; lia]. unfold in_range. cbn [is_circle ball get b_kind circle_init body_init to_v3 bind]. cbn [b_rad b_kind]. assert (10 <= 10 ^ 9) by (cbn [pow]; lra). lra. Qed.

(** any two manageable bodies can be put in a world *)
Lemma pair_sane : broadphase_sane (@pair_oracle R).
Proof. intros k gs i j H. cbn in H. apply all_pairs_spec in H. lia. Qed.
Lemma two_world b1 b2 : available b1 -> available b2 -> manageable 18 b1 -> manageable 18 b2 ->
  exists w, simulated 18 pair_oracle w /\ map still (w_bodies w) = map still [b1; b2] /\ w_eps w = 1/10 /\ contacts_current pair_oracle (diff_handler 18 pair_oracle) w.
Proof.
  intros A1 A2 M1 M2.
  assert (E : exists w, world_init pair_oracle (diff_handler 18 pair_oracle) [] [b1; b2] [] (1/2) (1/10) 0 2 false false = Ok w /\ map still (w_bodies w) = map still [b1; b2] /\ w_eps w = 1/10).
  { unfold world_init. cbn [mapM bind forallb fold_left]. unfold set_v. rewrite cat3_length, map_length. cbn [w_bodies length Nat.eqb Nat.mul Nat.add bind].
    set (w1 := with_state _ _ _ _ _ _ _ _). assert (S1 : map still [b1; b2] = map still (w_bodies w1)) by (unfold w1; cbn; rewrite !still_with_v; reflexivity).
    destruct (find_contacts_total 18 pair_oracle w1 pair_sane) as (w2 & E2).
    { apply (still_all 18 [b1; b2]); [exact S1|]. apply Forall_cons; [exact M1|]. apply Forall_cons; [exact M2|]. apply Forall_nil. }
    rewrite E2. cbn [bind]. exists w2. split; [reflexivity|]. pose proof (find_contacts_frame _ _ _ _ (diff_handler_frame _ _) E2) as F.
    split; [rewrite (map_still_forget _ _ F); now symmetry|]. apply find_contacts_fold in E2. destruct E2 as (cs & bs & clk & _ & ->). reflexivity. }
  destruct E as (w & E & S & Ee). exists w. split; [|split; [exact S|split; [exact Ee|eapply init_current; [apply diff_handler_frame|exact E]]]].
  exists 0%nat, free_engine, [], [b1; b2], [], (1/2), (1/10), 0, 2%nat, false, false, w, []. split; [apply Forall_cons; [exact A1|]; apply Forall_cons; [exact A2|]; apply Forall_nil|]. split; [exact E|reflexivity].
Qed.
Lemma still_eps (b b' : body R) : still b = still b' -> b_eps b = b_eps b'.
Proof. destruct b as [i k p v m j f r e fs g], b' as [i' k' p' v' m' j' f' r' e' fs' g']. unfold still, forget, with_v. cbn. destruct k, k'; cbn; intros H; inversion H; auto. Qed.
Lemma still_solid (b b' : body R) : still b = still b' -> solid b -> solid b'.
Proof. destruct b as [i k p v m j f r e fs g], b' as [i' k' p' v' m' j' f' r' e' fs' g']. unfold still, forget, with_v, solid. cbn. destruct k, k'; cbn; intros H; inversion H; subst; auto. Qed.
Lemma two_world_nth b1 b2 (w : world R) : map still (w_bodies w) = map still [b1; b2] -> exists a1 a2, w_bodies w = [a1; a2] /\ still b1 = still a1 /\ still b2 = still a2.
Proof.
  intros H. destruct (w_bodies w) as [|a1 [|a2 [|a3 l]]]; try discriminate. exists a1, a2. cbn [map] in H. split; [reflexivity|].
  split; [exact (eq_sym (f_equal (fun l => hd (still a1) l) H))|exact (eq_sym (f_equal (fun l => hd (still a1) (tl l)) H))].
Qed.
