(** C02, C06, C07, C08: what a halved step leaves behind *)
From Coq Require Import List Arith ZArith Lia Bool Reals Lra Floats.
From Verif Require Import Num Tensor Bodies Forces Constraints Contacts World Lapack LapackRef Engines
     Spec GeoSpec BodySpec RewindSpec RBase WorldFacts HandlerFacts BodyReach RewindFacts FloatEx RealEx RewindEx.
Import ListNotations.

(** C02.  With post_stab=True the guarantee of C01 fails.  A strict world of three circles, one step
    with the default engine: the world returns with a contact that penetrates far more than tol. *)
Open Scope float_scope.
Definition C02_world : res (world float) :=
  do b1 <- circle_init 0 [0; 0] 1 [0; 8; 0] 1 0.5 0.5 0.125;
  do b2 <- circle_init 1 [10.0625; 0] 1 [0; 0; 0] 1 0.5 0.5 0.125;
  do b3 <- circle_init 2 [12.25; 0] 1 [0; 0; 0] 1 0.5 0.5 0.125;
  world_init pair_oracle (diff_handler 10 pair_oracle) [] [b1; b2; b3] [] 1 0.125 0x1p-20 2 true true.
Theorem C02_post_stab_refuted :
  exists w, (do w0 <- C02_world;
             exec 20 pair_oracle (diff_handler 10 pair_oracle) ref_engine [OStep false] w0) = Ok w /\
            (w_strict w && negb (w_tol w <? 0x1p-20) && negb (0x1p-20 <? w_tol w) &&
             existsb (fun c => 0.75 <? c_pen c) (w_contacts w))%bool = true.
Proof. apply res_check_ok. vm_compute. reflexivity. Qed.
Print Assumptions C02_post_stab_refuted.
(** ... and from the state it returned, the next step does not return within 200 halvings *)
Theorem C02_post_stab_stuck :
  (do w0 <- C02_world;
   exec 200 pair_oracle (diff_handler 10 pair_oracle) ref_engine [OStep false; OStep false] w0) = Err EFuel.
Proof. vm_compute. reflexivity. Qed.
Print Assumptions C02_post_stab_stuck.
Close Scope float_scope.

(** What does hold: the move that precedes the correction was accepted with every contact within
    tol, for every arithmetic, engine and callback. *)
Theorem C02_before_correction :
  forall (T : Type) (N : Num T) fuel (o : oracle T) (hd : handler T) (e : engine T) w dt w',
    w_strict w = true -> step_dt fuel o hd e w dt = Ok w' ->
    exists w2, accepted_state o hd e w dt w2 /\
               forall c, In c (w_contacts w2) -> nleb (c_pen c) (w_tol w) = true.
Proof. exact @accepted_within_tol. Qed.
Print Assumptions C02_before_correction.

Open Scope R_scope.
(** C06.  A step that halved k times (k rejected trial moves) leaves every body exactly where one
    move of dt/2^k, from where it was and with the velocity v the engine computed, takes it:
    pose, velocity, vertices, geometry, everything but the SAT warm-start index. *)
Theorem C06_rejected_moves :
  forall fuel (o : oracle R) hd e w dt w',
    handler_frame hd -> Forall reachable_body (w_bodies w) -> w_post_stab w = false ->
    step_dt fuel o hd e w dt = Ok w' ->
    exists v k, solved_velocity e w dt v /\ rejected o hd e w dt k /\
      length (w_bodies w') = length (w_bodies w) /\
      forall i b, nth_error (w_bodies w) i = Some b ->
        exists b', nth_error (w_bodies w') i = Some b' /\
                   forget b' = forget (move (with_v b (v3_at v i)) (dt / 2 ^ k)).
Proof. exact rejected_moves. Qed.
Print Assumptions C06_rejected_moves.

(** With post-stabilisation exactly one more move follows, by half the correction dp. *)
Theorem C06_rejected_moves_post_stab :
  forall fuel (o : oracle R) hd e w dt w',
    handler_frame hd -> Forall reachable_body (w_bodies w) -> w_post_stab w = true ->
    step_dt fuel o hd e w dt = Ok w' ->
    exists v k dp, solved_velocity e w dt v /\ rejected o hd e w dt k /\
      length (w_bodies w') = length (w_bodies w) /\
      forall i b, nth_error (w_bodies w) i = Some b ->
        exists b', nth_error (w_bodies w') i = Some b' /\
          forget b' = forget (with_v (move (with_v (move (with_v b (v3_at v i)) (dt / 2 ^ k))
                                                   (v3_at (map (fun x => x / 2) dp) i)) (dt / 2 ^ k))
                                     (v3_at v i)).
Proof. exact rejected_moves_post_stab. Qed.
Print Assumptions C06_rejected_moves_post_stab.

(** two circles that meet, and a rectangle, joined to the second one, that turns meanwhile *)
Example C06_case : exists c, rect_init 2 [1/3; 4; 50] (2, 3) [1; 0; 0] 6 1 1 (1/10) = Ok c /\
  handler_frame ex_hd /\ Forall reachable_body (w_bodies (rew_world c)) /\ w_post_stab (rew_world c) = false /\
  (exists w', step_dt 5 first_pair ex_hd free_engine (rew_world c) (1 / 2) = Ok w') /\
  rejected first_pair ex_hd free_engine (rew_world c) (1 / 2) 1.
Proof. exact rew_case. Qed.

(** C07.  After the same step every joint is what one move of dt/2^k makes of it -- anchor,
    offsets, rot1 -- except rot2. *)
Theorem C07_rejected_joints :
  forall fuel (o : oracle R) hd e w dt w',
    handler_frame hd -> Forall reachable_body (w_bodies w) -> w_post_stab w = false ->
    step_dt fuel o hd e w dt = Ok w' ->
    exists v k, solved_velocity e w dt v /\ rejected o hd e w dt k /\
      length (w_joints w') = length (w_joints w) /\
      forall n j i1 i2, nth_error (w_joints w) n = Some (j, i1, i2) ->
        exists j' b1 b2, nth_error (w_joints w') n = Some (j', i1, i2) /\
          joint_ends w v i1 i2 b1 b2 /\
          let dt' := dt / 2 ^ k in
          let one := j_move j (move b1 dt') (option_map (fun b => move b dt') b2) dt' in
          j' = j_with_rots one (j_rot1 one) (j_rot2 j').
Proof. exact rejected_joints. Qed.
Print Assumptions C07_rejected_joints.

Example C07_case : exists c, Forall reachable_body (w_bodies (rew_world c)) /\
  (exists w', step_dt 5 first_pair ex_hd free_engine (rew_world c) (1 / 2) = Ok w') /\
  rejected first_pair ex_hd free_engine (rew_world c) (1 / 2) 1 /\
  exists r2, nth_error (w_joints (rew_world c)) 0 = Some (joint_init exB (Some c) (1, 1), 1%nat, Some 2%nat) /\
             j_kind (joint_init exB (Some c) (1, 1)) = JJoint /\ j_rot2 (joint_init exB (Some c) (1, 1)) = Some r2 /\
             fst (v3_at (w_v (rew_world c)) 2) = 1.
Proof.
  destruct rew_case as (c & _ & _ & H1 & _ & H2 & H3). exists c. split; [exact H1|]. split; [exact H2|]. split; [exact H3|].
  eexists. split; [reflexivity|]. split; [reflexivity|]. split; reflexivity.
Qed.

(** rot2 instead has turned for the sum dt + dt/2 + ... + dt/2^k = dt (2 - 1/2^k) of all trials. *)
Theorem C07_rot2_drift :
  forall fuel (o : oracle R) hd e w dt w',
    handler_frame hd -> Forall reachable_body (w_bodies w) -> w_post_stab w = false ->
    step_dt fuel o hd e w dt = Ok w' ->
    exists v k, solved_velocity e w dt v /\ rejected o hd e w dt k /\
      forall n j i1 i2 r2, nth_error (w_joints w) n = Some (j, i1, Some i2) ->
        j_kind j = JJoint -> j_rot2 j = Some r2 ->
        exists j', nth_error (w_joints w') n = Some (j', i1, Some i2) /\
                   j_rot2 j' = Some (r2 + fst (v3_at v i2) * (dt * (2 - / 2 ^ k))).
Proof. exact rot2_drift. Qed.
Print Assumptions C07_rot2_drift.
Close Scope R_scope.

(** A reachable world in which that happens: after one halved step with the default engine, body 2
    of the joint turned by less than 1/8 rad while rot2 turned by more than 3/8. *)
Open Scope float_scope.
Definition C07_world : res (world float) :=
  do b1 <- circle_init 0 [0; 0] 1 [0; 4; 0] 1 0.5 0.5 0.125;
  do b2 <- circle_init 1 [3; 0] 1 [0; 0; 0] 1 0.5 0.5 0.125;
  do b3 <- circle_init 2 [0; 10] 0.5 [0.25; 0; -0.25] 1 0.5 0.5 0.125;
  do b4 <- circle_init 3 [-2; 10] 0.5 [0.25; 0; -0.75] 1 0.5 0.5 0.125;
  world_init pair_oracle (diff_handler 10 pair_oracle) [] [b1; b2; b3; b4]
             [joint_init b3 (Some b4) (1, 10)] 1 0.125 0x1p-20 2 false true.
Theorem C07_rot2_refuted :
  exists ww, (do w0 <- C07_world;
              do w <- exec 20 pair_oracle (diff_handler 10 pair_oracle) ref_engine [OStep false] w0;
              Ok (w0, w)) = Ok ww /\
    match w_joints (fst ww), w_joints (snd ww), nth_error (w_bodies (snd ww)) 3 with
    | [(j0, _, _)], [(j, _, _)], Some b2 =>
        match j_rot2 j0, j_rot2 j with
        | Some r0, Some r => (b_rot b2 <? 0.125) && (r0 + 0.375 <? r)
        | _, _ => false
        end
    | _, _, _ => false
    end%bool = true.
Proof. apply res_check_ok. vm_compute. reflexivity. Qed.
Print Assumptions C07_rot2_refuted.

(** C08.  The impulse does not match the elapsed time: a body of mass 2 under the constant force 3
    gains momentum 3 in a step that advances time by 1/4 only. *)
Definition C08_world : res (world float) :=
  do b1 <- circle_init 0 [0; 0] 1 [0; 4; 0] 1 0.5 0.5 0.125;
  do b2 <- circle_init 1 [3; 0] 1 [0; 0; 0] 1 0.5 0.5 0.125;
  do b3 <- circle_init 2 [0; 10] 0.5 [0; 0; 0] 2 0.5 0.5 0.125;
  do hb <- add_force [FExt down_force 3] b3 0;
  world_init pair_oracle (diff_handler 10 pair_oracle) (fst hb) [b1; b2; snd hb] [] 1 0.125 0x1p-20 2 false true.
Theorem C08_impulse_refuted :
  exists w, (do w0 <- C08_world;
             exec 20 pair_oracle (diff_handler 10 pair_oracle) ref_engine [OStep false] w0) = Ok w /\
    ((w_t w =? 0.25) &&
     match nth_error (w_bodies w) 2 with
     | Some b => b_mass b * snd (snd (b_v b)) =? 3
     | None => false
     end)%bool = true.
Proof. apply res_check_ok. vm_compute. reflexivity. Qed.
Print Assumptions C08_impulse_refuted.
