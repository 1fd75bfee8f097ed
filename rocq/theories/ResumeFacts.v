(** A resumed run goes on as the interrupted one would have *)
From Coq Require Import List Arith ZArith Bool Reals Lra Lia.
From Verif Require Import Num Tensor Utils Bodies Forces Constraints Contacts World Lapack Pdipm Lcp Engines Spec GeoSpec BodySpec JointSpec FreshSpec EngineSpec ContactSpec ResumeSpec
     RBase ResFacts LinAlg LapackSpec WorldFacts HandlerFacts LayoutFacts HistFacts SysFacts RewindFacts JointFacts JeFacts FreshFacts
     CacheFacts BodyReach GeomFacts EngineFacts SceneInit CollideFacts DetectSpec DetectFacts EngineProps EngineMore.
Import ListNotations.
Open Scope R_scope.

Section Shift.
Variables (t0 : R) (o : oracle R) (hd : handler R) (la : lapack R) (mi : nat).
Hypothesis Ho : repeatable o.
Definition agree (a b : res (list (contact R) * list (body R) * nat)) : Prop :=
  match a, b with Ok (c, x, _), Ok (c', x', _) => c' = c /\ x' = x | Err e, Err e' => e' = e | _, _ => False end.
Hypothesis Hh : forall eps k k' bs i j, agree (hd eps k bs i j) (hd eps k' bs i j).

Definition shift (k : nat) (w : world R) : world R :=
  {| w_bodies := w_bodies w; w_joints := w_joints w; w_heap := delayed t0 (w_heap w); w_t := w_t w - t0; w_dt := w_dt w;
     w_eps := w_eps w; w_tol := w_tol w; w_fric_dirs := w_fric_dirs w; w_post_stab := w_post_stab w; w_strict := w_strict w; w_v := w_v w; w_contacts := w_contacts w;
     w_static_inverse := w_static_inverse w; w_num_constraints := w_num_constraints w; w_M := w_M w; w_cache := w_cache w; w_clk := k |}.
Definition sim (r r' : res (world R)) : Prop :=
  match r, r' with Ok a, Ok b => exists k, b = shift k a | Err e, Err e' => e' = e | _, _ => False end.
Definition sim2 (r r' : res (world R * R)) : Prop :=
  match r, r' with Ok (a, s), Ok (b, s') => s' = s /\ exists k, b = shift k a | Err e, Err e' => e' = e | _, _ => False end.

Lemma delayed_forces h b t : body_apply_forces (delayed t0 h) b (t - t0) = body_apply_forces h b t.
Proof.
  unfold body_apply_forces. f_equal. apply mapM_ext. intros id _. unfold delayed. rewrite nth_error_map. destruct (nth_error h id) as [f|]; [|reflexivity]. cbn [option_map].
  destruct f as [func m|g c]; [|reflexivity]. cbn [force_value]. rnum. do 3 f_equal. lra.
Qed.
Lemma shift_forces k w : world_apply_forces (shift k w) (w_t (shift k w)) = world_apply_forces w (w_t w).
Proof. unfold world_apply_forces. cbn [shift w_heap w_bodies w_t]. f_equal. apply mapM_ext. intros b _. apply delayed_forces. Qed.
Lemma shift_set_v k w v : sim (set_v w v) (set_v (shift k w) v).
Proof. unfold set_v. cbn [shift w_bodies]. destruct (Nat.eqb _ _); cbn; [|reflexivity]. exists k. reflexivity. Qed.
Lemma shift_move k w dt : sim (move_all w dt) (move_all (shift k w) dt).
Proof. unfold move_all. cbn [shift w_bodies w_joints]. destruct (mapM _ _); cbn; [|reflexivity]. exists k. reflexivity. Qed.
Lemma shift_rewind k w sp sr : sim (rewind w sp sr) (rewind (shift k w) sp sr).
Proof. unfold rewind. cbn [shift w_bodies w_joints world_set_p with_bodies with_state]. destruct (mapM _ _); cbn; [|reflexivity]. exists k. reflexivity. Qed.
Definition looks eps (acc : res (list (contact R) * list (body R) * nat)) (p : nat * nat) : res (list (contact R) * list (body R) * nat) :=
  let '(i1, i2) := p in do s <- acc; let '(cs, bs, clk) := s in do r <- hd eps clk bs i1 i2; let '(new, bs', clk') := r in Ok (cs ++ new, bs', clk').
Lemma looks_agree eps pairs : forall a b, agree a b -> agree (fold_left (looks eps) pairs a) (fold_left (looks eps) pairs b).
Proof.
  induction pairs as [|[i j] pairs IH]; intros a b H; [exact H|]. cbn [fold_left]. apply IH. unfold looks. destruct a as [[[cs bs] k]|e], b as [[[cs' bs'] k']|e']; cbn in H; try contradiction; [|exact H].
  destruct H as [-> ->]. cbn [bind]. pose proof (Hh eps k k' bs i j) as A. destruct (hd eps k bs i j) as [[[c x] q]|e], (hd eps k' bs i j) as [[[c' x'] q']|e']; cbn in A; try contradiction; [|exact A].
  destruct A as [-> ->]. cbn. auto.
Qed.
Lemma shift_find k w : sim (find_contacts o hd w) (find_contacts o hd (shift k w)).
Proof.
  unfold find_contacts. cbv zeta. cbn [shift w_bodies w_joints w_eps w_clk]. rewrite (proj1 (Ho k (w_clk w))).
  pose proof (looks_agree (w_eps w) (o_collide o (w_clk w) (map b_geom (w_bodies w))) (Ok ([], w_bodies w, S (w_clk w))) (Ok ([], w_bodies w, S k)) ltac:(cbn; auto)) as A.
  change (looks (w_eps w)) with (fun acc '(i1, i2) => do s <- acc; let '(cs, bs, clk) := s in do r <- hd (w_eps w) clk bs i1 i2; let '(new, bs', clk') := r in Ok (cs ++ new, bs', clk')) in A.
  set (X := fold_left _ _ (Ok ([], w_bodies w, S (w_clk w)))) in *. set (Y := fold_left _ _ (Ok ([], w_bodies w, S k))) in *.
  destruct X as [[[cs bs] q]|e], Y as [[[cs' bs'] q']|e']; cbn in A; try contradiction; [|exact A]. destruct A as [-> ->]. cbn. exists q'. reflexivity.
Qed.
Lemma sim_bind r r' f f' : sim r r' -> (forall a k, r = Ok a -> sim (f a) (f' (shift k a))) -> sim (do a <- r; f a) (do a <- r'; f' a).
Proof. intros H Hf. destruct r as [a|e], r' as [b|e']; cbn in H; try contradiction; [|exact H]. destruct H as [k ->]. cbn [bind]. now apply Hf. Qed.
Lemma shift_loop fuel : forall k w sp sr dt, sim2 (step_loop fuel o hd w sp sr dt) (step_loop fuel o hd (shift k w) sp sr dt).
Proof.
  induction fuel as [|fuel IH]; intros k w sp sr dt; [reflexivity|]. cbn [step_loop].
  pose proof (shift_move k w dt) as A. destruct (move_all w dt) as [w1|e], (move_all (shift k w) dt) as [w1'|e']; cbn in A; try contradiction; [|exact A]. destruct A as [k1 ->]. cbn [bind].
  pose proof (shift_find k1 w1) as A. destruct (find_contacts o hd w1) as [w2|e], (find_contacts o hd (shift k1 w1)) as [w2'|e']; cbn in A; try contradiction; [|exact A]. destruct A as [k2 ->]. cbn [bind].
  change (no_penetration (shift k2 w2)) with (no_penetration w2). change (w_strict (shift k2 w2)) with (w_strict w2). change (w_dt (shift k2 w2)) with (w_dt w2).
  destruct (no_penetration w2); [cbn; eauto|]. destruct (negb _ && _)%bool; [cbn; eauto|].
  pose proof (shift_rewind k2 w2 sp sr) as A. destruct (rewind w2 sp sr) as [w3|e], (rewind (shift k2 w2) sp sr) as [w3'|e']; cbn in A; try contradiction; [|exact A]. destruct A as [k3 ->]. cbn [bind].
  apply IH.
Qed.
Definition eng := without_cache (pdipm_engine la mi).
Lemma shift_solve k w dt : e_solve eng (shift k w) dt = e_solve eng w dt.
Proof.
  cbn [eng without_cache pdipm_engine e_solve]. f_equal. unfold solve_dynamics. cbv zeta.
  change (world_apply_forces (with_cache (shift k w) None) (w_t (with_cache (shift k w) None))) with (world_apply_forces (shift k w) (w_t (shift k w))). rewrite shift_forces. reflexivity.
Qed.
Lemma shift_post k w : e_post eng (shift k w) = e_post eng w.
Proof. reflexivity. Qed.
Lemma shift_step fuel k w dt : sim (step_dt fuel o hd eng w dt) (step_dt fuel o hd eng (shift k w) dt).
Proof.
  unfold step_dt. cbv zeta. rewrite shift_solve. destruct (e_solve eng w dt) as [[v c]|e]; [|reflexivity]. cbn [bind].
  change (with_cache (shift k w) c) with (shift k (with_cache w c)). apply sim_bind; [apply shift_set_v|]. intros w1 k1 _.
  change (w_bodies (shift k w)) with (w_bodies w). change (w_joints (shift k w)) with (w_joints w).
  pose proof (shift_loop fuel k1 w1 (cat3 (map b_p (w_bodies w))) (map (fun '(j, _, _) => (j_rot1 j, j_rot2 j)) (w_joints w)) dt) as A.
  destruct (step_loop fuel o hd w1 _ _ dt) as [[w2 s]|e], (step_loop fuel o hd (shift k1 w1) _ _ dt) as [[w2' s']|e']; cbn in A; try contradiction; [|exact A]. destruct A as (-> & k2 & ->). cbn [bind].
  apply sim_bind.
  - change (w_post_stab (shift k2 w2)) with (w_post_stab w2). destruct (w_post_stab w2); [|cbn; eauto]. rewrite shift_post. destruct (e_post eng w2) as [dp|e]; [|reflexivity]. cbn [bind].
    apply sim_bind; [apply shift_set_v|]. intros wa ka _. apply sim_bind; [apply shift_move|]. intros wb kb _. change (w_v (shift k2 w2)) with (w_v w2).
    apply sim_bind; [apply shift_set_v|]. intros wc kc _. apply shift_find.
  - intros w3 k3 _. cbn. exists k3. unfold with_t, with_state, shift. cbn. rnum. f_equal. lra.
Qed.
Lemma shift_fixed lfuel end_t fuel : forall k w, sim (fixed_loop fuel lfuel o hd eng end_t w) (fixed_loop fuel lfuel o hd eng (end_t - t0) (shift k w)).
Proof.
  induction fuel as [|fuel IH]; intros k w; [reflexivity|]. cbn [fixed_loop]. change (w_t (shift k w)) with (w_t w - t0). rnum.
  replace (end_t - t0 - (w_t w - t0)) with (end_t - w_t w) by lra.
  destruct (Rltb_spec (w_t w) end_t) as [L|L].
  - rewrite (proj2 (Rltb_true _ _)) by lra. apply sim_bind; [apply shift_step|]. intros w1 k1 _. apply IH.
  - rewrite (proj2 (Rltb_false _ _)) by lra. cbn. eauto.
Qed.
Lemma shift_exec fuel ops : forall k w, sim (exec fuel o hd eng ops w) (exec fuel o hd eng ops (shift k w)).
Proof.
  induction ops as [|op ops IH]; intros k w; [cbn; eauto|]. destruct op as [fx|dt|v]; cbn [exec].
  - apply sim_bind; [|intros; apply IH]. unfold step. change (w_dt (shift k w)) with (w_dt w). destruct fx; [|apply shift_step].
    change (w_t (shift k w)) with (w_t w - t0). rnum. replace (w_t w - t0 + w_dt w) with (w_t w + w_dt w - t0) by lra. apply shift_fixed.
  - apply sim_bind; [|intros; apply IH]. apply shift_step.
  - apply sim_bind; [|intros; apply IH]. apply shift_set_v.
Qed.
End Shift.

Lemma repeat_hd gf (o : oracle R) hd : repeatable o -> hd = diff_handler gf o \/ hd = ode_handler o -> forall eps k k' bs i j, agree (hd eps k bs i j) (hd eps k' bs i j).
Proof.
  intros Ho Hh eps k k' bs i j. destruct Hh as [-> | ->].
  - unfold diff_handler. destruct (get_body bs i) as [b1|]; [|reflexivity]. destruct (get_body bs j) as [b2|]; [|reflexivity]. cbn [bind]. destruct (existsb _ _); [cbn; auto|].
    destruct (is_circle b1 && is_circle b2)%bool; [cbn; auto|]. destruct (is_circle b1 || is_circle b2)%bool.
    + destruct (is_circle b2).
      * destruct (Nat.eqb _ 0); [reflexivity|]. rewrite (proj2 (proj2 (Ho k' k))). destruct (circle_hull _ _ _ _ _) as [[op hu]|e]; cbn; auto.
      * destruct (Nat.eqb _ 0); [reflexivity|]. rewrite (proj2 (proj2 (Ho k' k))). destruct (circle_hull _ _ _ _ _) as [[op hu]|e]; cbn; auto.
    + destruct (hull_hull _ _ _) as [[[ps c1] c2]|e]; cbn; auto.
  - unfold ode_handler. destruct (get_body bs i) as [b1|]; [|reflexivity]. destruct (get_body bs j) as [b2|]; [|reflexivity]. cbn [bind]. destruct (existsb _ _); [cbn; auto|].
    rewrite (proj1 (proj2 (Ho k' k))). destruct (fold_left _ _ _). cbn. auto.
Qed.
