(** Concrete real-number world used by the non-vacuity examples, and tactics to run it *)
From Coq Require Import List ZArith Reals Lra Lia.
From Verif Require Import Num Tensor Bodies Forces Constraints Contacts World Lapack LapackRef
     Engines FloatEx Spec ResFacts RBase WorldFacts.
Import ListNotations.
Open Scope R_scope.

(** an engine that changes nothing *)
Definition free_engine : engine R :=
  {| e_solve := fun w _ => Ok (w_v w, None); e_post := fun w => Ok (w_v w) |}.

Definition get {A} (d : A) (r : res A) : A := match r with Ok a => a | Err _ => d end.
Definition dummy_body {T} `{Num T} : body T :=
  mkBody 0 (KCircle n0) v3zero v3zero n0 n0 n0 n0 n0 [] (mkGeom (GSphere n0) v2zero None []).

(** a unit circle at the origin with velocity 4, another at x = 3 at rest *)
Definition exA : body R := get dummy_body (circle_init 0 [0; 0] 1 [0; 4; 0] 1 (1/2) (1/2) (1/10)).
Definition exB : body R := get dummy_body (circle_init 1 [3; 0] 1 [0; 0; 0] 1 (1/2) (1/2) (1/10)).
Definition ex_hd : handler R := diff_handler 10 pair_oracle.
Definition ex_init (strict : bool) : res (world R) :=
  world_init pair_oracle ex_hd [] [exA; exB] [] (1/2) (1/10) 0 2 false strict.

Lemma sqrt_axis x y : y = 0 -> sqrt (x * x + y * y) = Rabs x.
Proof. intros ->. replace (x * x + 0 * 0) with (Rsqr x) by (unfold Rsqr; ring). apply sqrt_Rsqr_abs. Qed.

(** the world with the first circle at [x] *)
Definition exw (strict : bool) (x t : R) (cs : list (contact R)) (clk : nat) : world R :=
  mkWorld [set_p exA (0, (x, 0)); exB] [] [] t (1/2) (1/10) 0 2 false strict
          [0; 4; 0; 0; 0; 0] cs true 0 (world_M [exA; exB]) None clk.
(** the contact of the two circles *)
Definition exc (x : R) : contact R :=
  let n := v2div (x - 3, 0) (3 - x) in
  let pen := 2 - (3 - x) in
  mkContact n (v2scale (1 - pen / 2) (v2opp n)) (v2scale (1 - pen / 2) n) pen 0 1.

Lemma exA_set_p : set_p exA (0, (0, 0)) = exA.
Proof. reflexivity. Qed.
Lemma exA_move x dt : move (set_p exA (0, (x, 0))) dt = set_p exA (0, (x + 4 * dt, 0)).
Proof.
  assert (E : v3add (0, (x, 0)) (v3scale dt (0, (4, 0))) = (0, (x + 4 * dt, 0))).
  { unfold v3add, v3scale, v2add, v2scale. rnum. cbn [fst snd].
    apply f_equal2; [ring|]. apply f_equal2; ring. }
  change (move (set_p exA (0, (x, 0))) dt)
    with (set_p exA (v3add (0, (x, 0)) (v3scale dt (0, (4, 0))))). now rewrite E.
Qed.
Lemma exB_move dt : move exB dt = exB.
Proof.
  assert (E : v3add (0, (3, 0)) (v3scale dt (0, (0, 0))) = (0, (3, 0))).
  { unfold v3add, v3scale, v2add, v2scale. rnum. cbn [fst snd].
    apply f_equal2; [ring|]. apply f_equal2; ring. }
  change (move exB dt) with (set_p exB (v3add (0, (3, 0)) (v3scale dt (0, (0, 0))))). now rewrite E.
Qed.

Lemma ex_move s x t cs clk dt : move_all (exw s x t cs clk) dt = Ok (exw s (x + 4 * dt) t cs clk).
Proof. unfold move_all. simpl. now rewrite exA_move, exB_move. Qed.

Lemma exc_circle x : x < 3 ->
  mk_contacts 0 1 (circle_circle (set_p exA (0, (x, 0))) exB (1/10)) =
  if Rltb (2 - (3 - x)) (- (1 / 10)) then [] else [exc x].
Proof.
  intros H. unfold circle_circle, v2norm, v2dot, v2sub. cbn -[Rltb].
  rewrite sqrt_axis by lra. rewrite Rabs_left by lra.
  replace (1 + 1 - - (x - 3)) with (2 - (3 - x)) by ring.
  replace (- (x - 3)) with (3 - x) by ring.
  destruct (Rltb _ _); [reflexivity|]. unfold exc, mk_contacts. cbn.
  replace (0 - 0) with 0 by ring. reflexivity.
Qed.

Lemma ex_find s x t cs clk : x < 3 ->
  find_contacts pair_oracle ex_hd (exw s x t cs clk) =
  Ok (exw s x t (if Rltb (2 - (3 - x)) (- (1 / 10)) then [] else [exc x]) (S clk)).
Proof.
  intros H. unfold find_contacts. cbn -[diff_handler Rltb mk_contacts].
  unfold ex_hd, diff_handler. cbn -[Rltb mk_contacts circle_circle set_p].
  change (b_geom exB) with (mkGeom (GSphere (1 + 1/10)) (3, 0) (@None (R * R)) []).
  cbn -[Rltb mk_contacts circle_circle set_p].
  pose proof (exc_circle x H) as E. cbn -[Rltb mk_contacts circle_circle] in E |- *.
  rewrite E. reflexivity.
Qed.

Lemma ex_init_ok s : ex_init s = Ok (exw s 0 0 [] 1).
Proof.
  unfold ex_init, world_init.
  assert (E : set_v (mkWorld [exA; exB] [] [] (IZR 0) (1/2) (1/10) 0 2 false s [] [] true 0
            (world_M [exA; exB]) None 0) (cat3 (map b_v [exA; exB])) = Ok (exw s 0 0 [] 0)) by reflexivity.
  cbn [mapM bind forallb fold_left].
  change (nofZ 0) with (IZR 0). rewrite E. cbn [bind]. rewrite ex_find by lra.
  replace (Rltb (2 - (3 - 0)) (- (1 / 10))) with true by (symmetry; apply Rltb_true; lra).
  destruct s; reflexivity.
Qed.

(** the first step is halved twice: at dt and dt/2 the circles overlap, at dt/4 they touch *)
Lemma ex_tries s : exists w,
  tries pair_oracle ex_hd [0; 0; 0; 0; 3; 0] [] (exw s 0 0 [] 1) (1 / 2) 1 w (1 / 2 / 2) /\
  w = exw s (0 + 4 * (1 / 2 / 2)) 0 [exc (0 + 4 * (1 / 2 / 2))] 3.
Proof.
  eexists; split; [|reflexivity].
  assert (L : forall x, 9 / 10 <= x -> Rltb (2 - (3 - x)) (- (1 / 10)) = false)
    by (intros; apply Rltb_false; lra).
  eapply tries_reject.
  - apply ex_move.
  - rewrite ex_find by lra. rewrite L by lra. reflexivity.
  - unfold no_penetration. cbn -[Rleb]. rewrite Bool.andb_true_r. apply Rleb_false. lra.
  - right. cbn -[Rltb]. apply Rltb_false. lra.
  - assert (E : rewind (exw s (0 + 4 * (1 / 2)) 0 [exc (0 + 4 * (1 / 2))] 2) [0; 0; 0; 0; 3; 0] []
                = Ok (exw s 0 0 [exc (0 + 4 * (1 / 2))] 2)) by reflexivity.
    exact E.
  - eapply tries_accept.
    + apply ex_move.
    + rewrite ex_find by lra. rewrite L by lra. reflexivity.
    + left. unfold no_penetration. cbn -[Rleb]. rewrite Bool.andb_true_r. apply Rleb_true. lra.
Qed.

(** a whole step_dt(1/2): one rejected attempt, time advances by 1/4 *)
Lemma ex_step_dt s fuel : (2 <= fuel)%nat -> exists w,
  step_dt fuel pair_oracle ex_hd free_engine (exw s 0 0 [] 1) (1 / 2) = Ok w /\
  w = exw s (0 + 4 * (1 / 2 / 2)) (0 + 1 / 2 / 2) [exc (0 + 4 * (1 / 2 / 2))] 3.
Proof.
  intros Hf. eexists; split; [|reflexivity]. unfold step_dt. cbn [e_solve free_engine bind].
  assert (E : set_v (with_cache (exw s 0 0 [] 1) None) (w_v (exw s 0 0 [] 1)) = Ok (exw s 0 0 [] 1))
    by reflexivity.
  rewrite E. cbn [bind]. destruct (ex_tries s) as (w & Ht & ->).
  change (cat3 (map b_p (w_bodies (exw s 0 0 [] 1)))) with [0; 0; 0; 0; 3; 0].
  change (map (fun '(j, _, _) => (j_rot1 j, j_rot2 j)) (w_joints (exw s 0 0 [] 1)))
    with (@nil (R * option R)).
  assert (G : forall k w, tries pair_oracle ex_hd [0; 0; 0; 0; 3; 0] [] (exw s 0 0 [] 1) (1 / 2) 1 w (1 / 2 / 2)
     -> (1 < k)%nat -> step_loop k pair_oracle ex_hd (exw s 0 0 [] 1) [0; 0; 0; 0; 3; 0] [] (1 / 2) = Ok (w, 1 / 2 / 2)).
  { intros; eapply WorldFacts.tries_step_loop; eauto. }
  rewrite (G fuel _ Ht) by lia. reflexivity.
Qed.

Lemma all_pairs_spec n i j : In (i, j) (all_pairs n) -> (i < j < n)%nat.
Proof.
  unfold all_pairs. intros H. apply in_flat_map in H. destruct H as (a & Ha & H).
  apply in_map_iff in H. destruct H as (b & E & Hb). inversion E; subst.
  apply in_seq in Ha, Hb. lia.
Qed.

(** an engine that stops everything as soon as there is a contact *)
Definition stop_engine : engine R :=
  {| e_solve := fun w _ => Ok (match w_contacts w with [] => w_v w | _ => [0; 0; 0; 0; 0; 0] end, None);
     e_post := fun w => Ok (w_v w) |}.

Lemma ex_step_dt_stop s fuel : (2 <= fuel)%nat ->
  step_dt fuel pair_oracle ex_hd stop_engine (exw s 0 0 [] 1) (1 / 2) =
  Ok (exw s (0 + 4 * (1 / 2 / 2)) (0 + 1 / 2 / 2) [exc (0 + 4 * (1 / 2 / 2))] 3).
Proof.
  intros Hf. destruct (ex_step_dt s fuel Hf) as (w & E & ->). exact E.
Qed.

Definition exw_stop (s : bool) (t : R) (clk : nat) : world R :=
  mkWorld [with_v (set_p exA (0, (1, 0))) (0, (0, 0)); exB] [] [] t (1/2) (1/10) 0 2 false s
          [0; 0; 0; 0; 0; 0] [exc 1] true 0 (world_M [exA; exB]) None clk.

Lemma ex_move_stop s t clk dt : move_all (exw_stop s t clk) dt = Ok (exw_stop s t clk).
Proof.
  unfold move_all. simpl.
  assert (E : v3add (0, (1, 0)) (v3scale dt (0, (0, 0))) = (0, (1, 0))).
  { unfold v3add, v3scale, v2add, v2scale. rnum. cbn [fst snd].
    apply f_equal2; [ring|]. apply f_equal2; ring. }
  change (move (with_v (set_p exA (0, (1, 0))) (0, (0, 0))) dt)
    with (with_v (set_p exA (v3add (0, (1, 0)) (v3scale dt (0, (0, 0))))) (0, (0, 0))).
  now rewrite E, exB_move.
Qed.

Lemma ex_find_stop s t clk : find_contacts pair_oracle ex_hd (exw_stop s t clk) = Ok (exw_stop s t (S clk)).
Proof.
  pose proof (exc_circle 1) as E.
  replace (Rltb (2 - (3 - 1)) (- (1 / 10))) with false in E by (symmetry; apply Rltb_false; lra).
  specialize (E ltac:(lra)).
  set (bs := w_bodies (exw_stop s t clk)).
  assert (Eh : ex_hd (1 / 10) (S clk) bs 0%nat 1%nat = Ok (mk_contacts 0 1 (circle_circle (set_p exA (0, (1, 0))) exB (1 / 10)), bs, S clk))
    by reflexivity.
  unfold find_contacts. change (o_collide pair_oracle (w_clk (exw_stop s t clk)) (map b_geom (w_bodies (exw_stop s t clk)))) with [(0%nat, 1%nat)].
  cbn [fold_left bind]. change (w_eps (exw_stop s t clk)) with (1 / 10).
  change (w_bodies (exw_stop s t clk)) with bs. change (w_clk (exw_stop s t clk)) with clk.
  rewrite Eh, E. reflexivity.
Qed.

(** one fixed step: a halved sub-step up to the contact, then a second one to the end time *)
Lemma ex_fixed_step s : exists w w', ex_init s = Ok w /\ 0 <= w_dt w /\ step 5 pair_oracle ex_hd stop_engine true w = Ok w' /\ w_t w' = 0 + 1 / 2 /\ w_clk w' = 4%nat.
Proof.
  exists (exw s 0 0 [] 1), (exw_stop s (0 + 1/2) 4). split; [apply ex_init_ok|].
  split; [simpl; lra|]. split; [|split; reflexivity]. unfold step.
  change (nadd (w_t (exw s 0 0 [] 1)) (w_dt (exw s 0 0 [] 1))) with (0 + 1 / 2).
  cbn [fixed_loop].
  change (nltb (w_t (exw s 0 0 [] 1)) (0 + 1 / 2)) with (Rltb 0 (0 + 1 / 2)).
  replace (Rltb 0 (0 + 1 / 2)) with true by (symmetry; apply Rltb_true; lra).
  change (nsub (0 + 1 / 2) (w_t (exw s 0 0 [] 1))) with (0 + 1 / 2 - 0).
  replace (0 + 1 / 2 - 0) with (1 / 2) by lra.
  rewrite ex_step_dt_stop by lia. cbn [bind].
  replace (0 + 4 * (1 / 2 / 2)) with 1 by lra.
  set (w1 := exw s 1 _ _ _). change (nltb (w_t w1) (0 + 1 / 2)) with (Rltb (0 + 1 / 2 / 2) (0 + 1 / 2)).
  replace (Rltb (0 + 1 / 2 / 2) (0 + 1 / 2)) with true by (symmetry; apply Rltb_true; lra).
  change (nsub (0 + 1 / 2) (w_t w1)) with (0 + 1 / 2 - (0 + 1 / 2 / 2)).
  replace (0 + 1 / 2 - (0 + 1 / 2 / 2)) with (1 / 4) by lra.
  assert (E : step_dt 5 pair_oracle ex_hd stop_engine w1 (1 / 4) = Ok (exw_stop s (0 + 1 / 2) 4)).
  { unfold step_dt. cbn [e_solve stop_engine bind].
    assert (E1 : set_v (with_cache w1 None) [0; 0; 0; 0; 0; 0] = Ok (exw_stop s (0 + 1 / 2 / 2) 3)).
    { reflexivity. }
    change (match w_contacts w1 with [] => w_v w1 | _ :: _ => [0; 0; 0; 0; 0; 0] end) with [0; 0; 0; 0; 0; 0].
    rewrite E1. cbn [bind step_loop]. rewrite ex_move_stop. cbn [bind]. rewrite ex_find_stop. cbn [bind].
    assert (En : no_penetration (exw_stop s (0 + 1 / 2 / 2) 4) = true).
    { unfold no_penetration. cbn -[Rleb]. rewrite Bool.andb_true_r. apply Rleb_true. lra. }
    rewrite En. cbn [bind]. change (w_post_stab (exw_stop s (0 + 1 / 2 / 2) 4)) with false.
    cbn [bind]. f_equal. unfold with_t, exw_stop, with_state. cbn -[IZR]. f_equal. lra. }
  rewrite E. cbn [bind].
  change (nltb (w_t (exw_stop s (0 + 1 / 2) 4)) (0 + 1 / 2)) with (Rltb (0 + 1 / 2) (0 + 1 / 2)).
  replace (Rltb (0 + 1 / 2) (0 + 1 / 2)) with false by (symmetry; apply Rltb_false; lra). reflexivity.
Qed.
