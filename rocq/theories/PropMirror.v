(** C85: mirror images; scenes with a symmetry *)
From Coq Require Import List Arith ZArith Bool Reals Lra Lia Permutation.
From Verif Require Import Num Tensor Utils Bodies Forces Constraints Contacts World Lapack LapackRef Pdipm Lcp Engines
     Spec GeoSpec BodySpec JointSpec EngineSpec ContactSpec LapackSpec SymSpec SceneSpec
     RBase ResFacts LuFacts SceneInit SceneSame MirrorFacts FloatEx RealEx ContactEx EngineEx WellEx DriftEx SceneEx MirrorEx.
Import ListNotations.
Open Scope R_scope.

(** C85.  Left and right are alike: the mirror image of a scene of circles in any line through the origin (clockwise for
    counterclockwise, anchors and forces mirrored) goes through the mirror images of the states, or both runs raise. *)
Theorem C85_mirror :
  forall la mi gf gf' fuel th o o' heap heap' bs bs' js js' dt eps tol fd ps st ops ops',
    lapack_ok la -> broadphase_ok o -> broadphase_ok o' -> round_scene eps bs ->
    up_to_order (fun b b' => b' = turn_body (mirrored th) b) bs bs' -> up_to_order (built_alike (mirrored th) bs) js js' ->
    Forall2 (turned_force (mirrored th)) heap heap' -> Forall2 (same_call (mirrored th) bs bs') ops ops' ->
    alike (same_scene (mirrored th))
      (do w0 <- world_init o (diff_handler gf o) heap bs js dt eps tol fd ps st; exec fuel o (diff_handler gf o) (pdipm_engine la mi) ops w0)
      (do w0 <- world_init o' (diff_handler gf' o') heap' bs' js' dt eps tol fd ps st; exec fuel o' (diff_handler gf' o') (pdipm_engine la mi) ops' w0).
Proof. intros la mi gf gf' fuel th. exact (scene_session la mi gf gf' fuel (mirrored th)). Qed.
Print Assumptions C85_mirror.
Example C85_mirror_case : forall th om0 om1 om2 vy0 vy1 vy2 fixed, let bs := chain_bodies om0 om1 om2 vy0 vy1 vy2 in let js := chain_joints om0 om1 om2 vy0 vy1 vy2 in
  exists w, broadphase_ok (pair_oracle (T := R)) /\ broadphase_ok flip_oracle /\ round_scene (1/10) bs /\
  up_to_order (fun b b' => b' = turn_body (mirrored th) b) bs (rev (map (turn_body (mirrored th)) bs)) /\ up_to_order (built_alike (mirrored th) bs) js (turned_chain (mirrored th) om0 om1 om2 vy0 vy1 vy2) /\
  Forall2 (turned_force (mirrored th)) falling_heap (turned_heap (mirrored th)) /\ Forall2 (same_call (mirrored th) bs (rev (map (turn_body (mirrored th)) bs))) (map OStep fixed) (map OStep fixed) /\
  (do w0 <- world_init pair_oracle disc_hd falling_heap bs js (1/2) (1/10) 0 2 false false; exec 9 pair_oracle disc_hd (pdipm_engine ref_lapack 10) (map OStep fixed) w0) = Ok w.
Proof.
  intros th om0 om1 om2 vy0 vy1 vy2 fixed bs js. destruct (chain_runs om0 om1 om2 vy0 vy1 vy2 10 fixed) as [w E]; [lia|]. exists w. split; [apply pair_ok|]. split; [apply flip_ok|]. split; [apply chain_round|].
  split; [|split; [apply chain_alike|split; [apply turned_gravity|split; [clear; induction fixed; constructor; cbn; auto|]]]].
  - exists (rev bs). split; [apply Permutation_rev|]. rewrite <- map_rev. induction (rev bs); constructor; auto.
  - unfold bs, js. rewrite chain_init. exact E.
Qed.
(** Nor does it matter which identities the bodies have: giving them others, consistently, changes nothing else. *)
Theorem C85_names :
  forall la mi gf gf' fuel name apart o o' heap bs bs' js js' dt eps tol fd ps st ops ops',
    lapack_ok la -> broadphase_ok o -> broadphase_ok o' -> round_scene eps bs ->
    up_to_order (fun b b' => b' = turn_body (renamed name apart) b) bs bs' -> up_to_order (built_alike (renamed name apart) bs) js js' ->
    Forall2 (same_call (renamed name apart) bs bs') ops ops' ->
    alike (same_scene (renamed name apart))
      (do w0 <- world_init o (diff_handler gf o) heap bs js dt eps tol fd ps st; exec fuel o (diff_handler gf o) (pdipm_engine la mi) ops w0)
      (do w0 <- world_init o' (diff_handler gf' o') heap bs' js' dt eps tol fd ps st; exec fuel o' (diff_handler gf' o') (pdipm_engine la mi) ops' w0).
Proof. exact names_session. Qed.
Print Assumptions C85_names.
(** A scene that is its own image under a rotation, or a reflection, with bodies changing places, is its own image after
    every history of calls that is: for every body there is always one at the image of its place, with the image of its
    velocity, and likewise for contacts and constraints. *)
Theorem C85_symmetric :
  forall la mi gf fuel f o heap bs js dt eps tol fd ps st ops w0 w,
    lapack_ok la -> broadphase_ok o -> round_scene eps bs ->
    up_to_order (fun b b' => b' = turn_body f b) bs bs -> up_to_order (built_alike f bs) js js -> Forall2 (turned_force f) heap heap ->
    Forall2 (same_call f bs bs) ops ops ->
    world_init o (diff_handler gf o) heap bs js dt eps tol fd ps st = Ok w0 -> exec fuel o (diff_handler gf o) (pdipm_engine la mi) ops w0 = Ok w ->
    same_scene f w w.
Proof. exact symmetric_session. Qed.
Print Assumptions C85_symmetric.
(** So a body on the mirror line that is its own image never leaves the line, and does not begin to spin ... *)
Theorem C85_on_the_axis :
  forall la mi gf fuel f o heap bs js dt eps tol fd ps st ops w0 w b,
    lapack_ok la -> broadphase_ok o -> round_scene eps bs -> v_mirror f = true -> v_angle f = 0 ->
    up_to_order (fun b b' => b' = turn_body f b) bs bs -> up_to_order (built_alike f bs) js js -> Forall2 (turned_force f) heap heap ->
    Forall2 (same_call f bs bs) ops ops ->
    world_init o (diff_handler gf o) heap bs js dt eps tol fd ps st = Ok w0 -> exec fuel o (diff_handler gf o) (pdipm_engine la mi) ops w0 = Ok w ->
    In b (w_bodies w) -> v_name f (b_id b) = b_id b ->
    snd (b_pos b) = 0 /\ fst (b_v b) = 0 /\ snd (snd (b_v b)) = 0.
Proof. exact axis_session. Qed.
Print Assumptions C85_on_the_axis.
(** ... and a body in the centre of a scene with a rotational symmetry never moves from there. *)
Theorem C85_in_the_centre :
  forall la mi gf fuel f o heap bs js dt eps tol fd ps st ops w0 w b,
    lapack_ok la -> broadphase_ok o -> round_scene eps bs -> v_mirror f = false -> cos (v_angle f) <> 1 ->
    up_to_order (fun b b' => b' = turn_body f b) bs bs -> up_to_order (built_alike f bs) js js -> Forall2 (turned_force f) heap heap ->
    Forall2 (same_call f bs bs) ops ops ->
    world_init o (diff_handler gf o) heap bs js dt eps tol fd ps st = Ok w0 -> exec fuel o (diff_handler gf o) (pdipm_engine la mi) ops w0 = Ok w ->
    In b (w_bodies w) -> v_name f (b_id b) = b_id b ->
    b_pos b = (0, 0) /\ snd (b_v b) = (0, 0).
Proof. exact centre_session. Qed.
Print Assumptions C85_in_the_centre.
(** Two discs run into a third from both sides: its own image in the y axis; and, when nothing moves along y, in the x axis
    and under a half turn. *)
Example C85_case : forall u vy vm e e1 fixed, exists w,
  round_scene (1/10) (trio u vy vm e e1) /\ up_to_order (fun b b' => b' = turn_body left_right b) (trio u vy vm e e1) (trio u vy vm e e1) /\
  up_to_order (built_alike left_right (trio u vy vm e e1)) [no_turn vm e1] [no_turn vm e1] /\
  Forall2 (same_call left_right (trio u vy vm e e1) (trio u vy vm e e1)) (map OStep fixed) (map OStep fixed) /\
  world_init pair_oracle disc_hd [] (trio u vy vm e e1) [no_turn vm e1] (1/2) (1/10) 0 2 false false = Ok (trio_world u vy vm e e1) /\ w_contacts (trio_world u vy vm e e1) <> [] /\
  exec 9 pair_oracle disc_hd (pdipm_engine ref_lapack 10) (map OStep fixed) (trio_world u vy vm e e1) = Ok w.
Proof.
  intros u vy vm e e1 fixed. destruct (trio_runs u vy vm e e1 10 fixed) as [w E]; [lia|]. exists w. split; [apply trio_round|]. split; [apply trio_image|]. split; [apply trio_tie|].
  split; [clear; induction fixed; constructor; cbn; auto|]. split; [apply trio_init|]. split; [discriminate|exact E].
Qed.
Example C85_axis_case : forall u e e1, v_mirror up_down = true /\ v_angle up_down = 0 /\ v_name up_down 1 = 1%nat /\
  up_to_order (fun b b' => b' = turn_body up_down b) (trio u 0 0 e e1) (trio u 0 0 e e1) /\ up_to_order (built_alike up_down (trio u 0 0 e e1)) [no_turn 0 e1] [no_turn 0 e1].
Proof. intros u e e1. split; [reflexivity|]. split; [reflexivity|]. split; [reflexivity|]. split; [apply trio_up_down|apply trio_tie_up_down]. Qed.
Example C85_centre_case : forall u e e1, v_mirror half_turn = false /\ cos (v_angle half_turn) <> 1 /\ v_name half_turn 1 = 1%nat /\
  up_to_order (fun b b' => b' = turn_body half_turn b) (trio u 0 0 e e1) (trio u 0 0 e e1) /\ up_to_order (built_alike half_turn (trio u 0 0 e e1)) [no_turn 0 e1] [no_turn 0 e1].
Proof. intros u e e1. split; [reflexivity|]. split; [cbn; rewrite cos_PI; lra|]. split; [reflexivity|]. split; [apply trio_half_turn|apply trio_tie_half_turn]. Qed.
