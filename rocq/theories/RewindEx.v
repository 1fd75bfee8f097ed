(** A concrete halved step over the reals: two circles that meet and a third body that turns *)
From Coq Require Import List ZArith Reals Lra Lia.
From Verif Require Import Num Tensor Bodies Forces Constraints Contacts World Lapack LapackRef
     Engines FloatEx Spec GeoSpec BodySpec RewindSpec ResFacts RBase WorldFacts BodyFacts RigidFacts HandlerFacts LayoutFacts RealEx.
Import ListNotations.
Open Scope R_scope.

(** a broad phase that reports the first two bodies only (the third is far away) *)
Definition first_pair : oracle R :=
  {| o_collide := fun _ _ => [(0, 1)]%nat; o_narrow := fun _ _ _ => []; o_choice := fun _ _ => 0%nat |}.

Section Ex.
Variable c : body R.
Hypothesis cv : b_v c = (1, (0, 0)).
Definition rexw (x : R) (d : body R) (j : joint R) (t : R) (cs : list (contact R)) (clk : nat) : world R :=
  mkWorld [set_p exA (0, (x, 0)); exB; d] [(j, 1, Some 2)]%nat [] t (1/2) (1/10) 0 2 false true
          [0; 4; 0; 0; 0; 0; 1; 0; 0] cs false 2 (world_M [exA; exB; c]) None clk.
Definition rew_world : world R := rexw 0 c (joint_init exB (Some c) (1, 1)) 0 [] 1.

Lemma rex_move x d j t cs clk dt : move_all (rexw x d j t cs clk) dt =
  Ok (rexw (x + 4 * dt) (move d dt) (j_move j exB (Some (move d dt)) dt) t cs clk).
Proof. unfold move_all. cbn -[move set_p j_move]. now rewrite exA_move, exB_move. Qed.
Lemma rex_find x d j t cs clk : x < 3 ->
  find_contacts first_pair ex_hd (rexw x d j t cs clk) =
  Ok (rexw x d j t (if Rltb (2 - (3 - x)) (- (1 / 10)) then [] else [exc x]) (S clk)).
Proof.
  intros H. unfold find_contacts. cbn -[diff_handler Rltb mk_contacts].
  unfold ex_hd, diff_handler. cbn -[Rltb mk_contacts circle_circle set_p].
  change (b_geom exB) with (mkGeom (GSphere (1 + 1/10)) (3, 0) (@None (R * R)) []).
  cbn -[Rltb mk_contacts circle_circle set_p].
  pose proof (exc_circle x H) as E. cbn -[Rltb mk_contacts circle_circle] in E |- *.
  rewrite E. reflexivity.
Qed.
Lemma rex_tries : exists w, tries first_pair ex_hd (cat3 (map b_p (w_bodies rew_world)))
  (map (fun '(j, _, _) => (j_rot1 j, j_rot2 j)) (w_joints rew_world)) rew_world (1 / 2) 1 w (1 / 2 / 2).
Proof.
  eexists.
  assert (L : forall x, 9 / 10 <= x -> Rltb (2 - (3 - x)) (- (1 / 10)) = false)
    by (intros; apply Rltb_false; lra).
  eapply tries_reject.
  - apply rex_move.
  - rewrite rex_find by lra. rewrite L by lra. reflexivity.
  - unfold no_penetration. cbn -[Rleb]. rewrite Bool.andb_true_r. apply Rleb_false. lra.
  - left. reflexivity.
  - set (j1 := j_move _ _ _ _). set (cs := [exc _]). cbn -[rewind rexw].
    assert (E : forall sp j r r2 d clk, rewind (rexw (0 + 4 * (1 / 2)) d j 0 cs clk) (0 :: 0 :: 0 :: 0 :: 3 :: 0 :: sp) [(r, r2)]
       = Ok (rexw 0 (set_p d (v3_at (0 :: 0 :: 0 :: 0 :: 3 :: 0 :: sp) 2))
               (j_update_pos (j_with_rots j r (j_rot2 j)) exB (Some (set_p d (v3_at (0 :: 0 :: 0 :: 0 :: 3 :: 0 :: sp) 2)))) 0 cs clk)) by reflexivity.
    apply E.
  - eapply tries_accept.
    + apply rex_move.
    + rewrite rex_find by lra. rewrite L by lra. reflexivity.
    + left. unfold no_penetration. cbn -[Rleb]. rewrite Bool.andb_true_r. apply Rleb_true. lra.
Qed.
Lemma rew_set_v : set_v (with_cache rew_world None) (w_v rew_world) = Ok rew_world.
Proof.
  assert (E : with_v c (1, (0, 0)) = c).
  { rewrite <- cv. destruct c. reflexivity. }
  change (set_v (with_cache rew_world None) (w_v rew_world)) with (Ok (rexw 0 (with_v c (1, (0, 0))) (joint_init exB (Some c) (1, 1)) 0 [] 1)).
  unfold rew_world. now rewrite E.
Qed.
Lemma rew_rejected : rejected first_pair ex_hd free_engine rew_world (1 / 2) 1.
Proof.
  destruct rex_tries as [w Hw]. exists w, (1 / 2 / 2). exists (w_v rew_world), None, rew_world.
  split; [reflexivity|]. split; [apply rew_set_v|exact Hw].
Qed.
Lemma rew_step : exists w', step_dt 5 first_pair ex_hd free_engine rew_world (1 / 2) = Ok w'.
Proof.
  destruct rex_tries as [w Hw]. eexists. unfold step_dt. cbn [e_solve free_engine bind].
  rewrite rew_set_v. cbn [bind].
  rewrite (tries_step_loop 5 _ _ _ _ _ _ _ _ _ Hw) by lia. cbn [bind].
  assert (E : w_post_stab w = false).
  { pose proof (tries_cfg _ _ _ _ _ _ _ _ _ Hw) as [Hc _]. apply cfg_fields in Hc. cbn in Hc. tauto. }
  rewrite E. reflexivity.
Qed.
End Ex.

Lemma rex_rect : exists c, rect_init 2 [1/3; 4; 50] (2, 3) [1; 0; 0] 6 1 1 (1/10) = Ok c.
Proof.
  unfold rect_init, hull_init_gen. rewrite rect_verts_corners. cbn [to_v3 bind length corners Nat.ltb Nat.leb andb Nat.eqb].
  assert (C : is_clockwise (corners (fst (2, 3)) (snd (2, 3))) = true).
  { apply is_clockwise_area. rewrite corners_area. cbn. lra. }
  unfold corners in *. rewrite C. cbn. eexists. reflexivity.
Qed.
Lemma rex_rect_v c : rect_init 2 [1/3; 4; 50] (2, 3) [1; 0; 0] 6 1 1 (1/10) = Ok c -> b_v c = (1, (0, 0)).
Proof.
  unfold rect_init, hull_init_gen. intros H. cbn [to_v3 bind] in H. bind_inv H as b E.
  destruct (_ && _)%bool in E; [|discriminate]. cbn in E. inversion E; subst b. cbn -[set_p] in H. injection H as H.
  rewrite <- H, set_p_v. reflexivity.
Qed.
Lemma rew_case : exists c, rect_init 2 [1/3; 4; 50] (2, 3) [1; 0; 0] 6 1 1 (1/10) = Ok c /\
  handler_frame ex_hd /\ Forall reachable_body (w_bodies (rew_world c)) /\ w_post_stab (rew_world c) = false /\
  (exists w', step_dt 5 first_pair ex_hd free_engine (rew_world c) (1 / 2) = Ok w') /\
  rejected first_pair ex_hd free_engine (rew_world c) (1 / 2) 1.
Proof.
  destruct rex_rect as [c Hc]. exists c. split; [exact Hc|]. pose proof (rex_rect_v _ Hc) as Hv.
  split; [apply diff_handler_frame|]. split; [|split; [reflexivity|split; [apply rew_step; exact Hv|apply rew_rejected; exact Hv]]].
  constructor; [|constructor; [|constructor; [|constructor]]]; apply RBavailable.
  - exists exA, []. split; [|reflexivity]. left. exists 0%nat, [0; 0], 1, [0; 4; 0], 1, (1/2), (1/2), (1/10). reflexivity.
  - exists exB, []. split; [|reflexivity]. left. exists 1%nat, [3; 0], 1, [0; 0; 0], 1, (1/2), (1/2), (1/10). reflexivity.
  - exists c, []. split; [|reflexivity]. right; right. do 8 eexists. exact Hc.
Qed.
