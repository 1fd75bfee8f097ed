(** C87: what is found depends on where the bodies are, not on what was found before *)
From Coq Require Import List Arith ZArith Bool Reals Lra Lia Permutation Floats.
From Verif Require Import Num Tensor Utils Bodies Forces Constraints Contacts World Lapack LapackRef Pdipm Lcp Engines Spec ResFacts RBase GeoSpec BodySpec ContactSpec FreshSpec DetectSpec
     WorldFacts BodyFacts RigidFacts FreshFacts HandlerFacts SatFacts CollideFacts DetectFacts FloatEx RealEx ContactEx DetectEx DetectProps.
Import ListNotations.
Open Scope R_scope.

(** C87.  What holds: if two simulations, with whatever pasts and engines, have their bodies in the same poses, and no pair of bodies
    is in a tie, then they have the same contacts (up to the order in which the pairs were looked at) ... *)
Theorem C87_poses_alone :
  forall gf gf' o o' w w',
    simulated gf o w -> simulated gf' o' w' -> broadphase_sane o -> same_pairs o o' ->
    map still (w_bodies w') = map still (w_bodies w) -> w_eps w' = w_eps w ->
    (forall i j b1 b2, i <> j -> nth_error (w_bodies w) i = Some b1 -> nth_error (w_bodies w) j = Some b2 -> clear_cut b1 b2) ->
    Permutation (w_contacts w) (w_contacts w').
Proof. exact poses_alone. Qed.
Print Assumptions C87_poses_alone.
(** ... and looking again finds the same contacts again, leaving the bodies where they are. *)
Theorem C87_again :
  forall gf gf' o o' w w',
    simulated gf o w -> broadphase_sane o -> same_pairs o o' ->
    (forall i j b1 b2, i <> j -> nth_error (w_bodies w) i = Some b1 -> nth_error (w_bodies w) j = Some b2 -> clear_cut b1 b2) ->
    find_contacts o' (diff_handler gf' o') w = Ok w' ->
    Permutation (w_contacts w) (w_contacts w') /\ map b_p (w_bodies w') = map b_p (w_bodies w) /\ map b_v (w_bodies w') = map b_v (w_bodies w).
Proof. exact look_again. Qed.
Print Assumptions C87_again.
(** a square resting on a square: two worlds, the second looked at again, with contacts *)
Example C87_case : exists w w' w2,
  simulated 18 pair_oracle w /\ simulated 18 pair_oracle w' /\ broadphase_sane (T := R) pair_oracle /\ same_pairs pair_oracle pair_oracle /\
  map still (w_bodies w') = map still (w_bodies w) /\ w_eps w' = w_eps w /\
  (forall i j b1 b2, i <> j -> nth_error (w_bodies w) i = Some b1 -> nth_error (w_bodies w) j = Some b2 -> clear_cut b1 b2) /\
  find_contacts pair_oracle (diff_handler 18 pair_oracle) w = Ok w2 /\ w_contacts w <> [] /\ w_v w' <> w_v w.
Proof. exact stacked_case. Qed.

(** Finding: with a tie it does depend on what was found before, through last_sat_idx.  Square 1 overlaps a corner of square 0 by the
    same amount in both directions, and square 2 touches square 0 elsewhere.  A second world built from the same bodies, in the same
    poses, sees the contact with another normal; the same calls (square 1 sent down, one step) then lead to other velocities: in the
    first world square 1 is slowed down, in the second it falls freely. *)
Open Scope float_scope.
Definition tied_boxes : res (world float) :=
  do a <- rect_init 0 [0; 0] (2, 2) [0; 0; 0] 1 0 0 0.125;
  do b <- rect_init 1 [1.9375; 1.9375] (2, 2) [0; 0; 0] 1 0 0 0.125;
  do c <- rect_init 2 [-1.9375; 0] (2, 2) [0; 0; 0] 1 0 0 0.125;
  world_init pair_oracle (diff_handler 18 pair_oracle) [] [a; b; c] [] 0.125 0.125 0.125 2 false true.
Definition sent_down (w : world float) : res (world float) :=
  exec 5 pair_oracle (diff_handler 18 pair_oracle) ref_engine [OSetV [0; 0; 0; 0; 0; -1; 0; 0; 0]; OStep false] w.
Theorem C87_history_refuted :
  exists w w' x x' c c',
    tied_boxes = Ok w /\
    world_init pair_oracle (diff_handler 18 pair_oracle) [] (w_bodies w) [] 0.125 0.125 0.125 2 false true = Ok w' /\
    map b_p (w_bodies w') = map b_p (w_bodies w) /\ w_v w' = w_v w /\
    nth_error (w_contacts w) 0 = Some c /\ nth_error (w_contacts w') 0 = Some c' /\ (c_i1 c, c_i2 c) = (0%nat, 1%nat) /\ (c_i1 c', c_i2 c') = (0%nat, 1%nat) /\
    ((snd (c_normal c) =? -1) && (fst (c_normal c) =? 0) && (snd (c_normal c') =? 0) && (fst (c_normal c') =? -1))%bool = true /\
    sent_down w = Ok x /\ sent_down w' = Ok x' /\
    ((-0.875 <? vget (w_v x) 5) && (vget (w_v x') 5 <? -0.9375))%bool = true.
Proof.
  do 6 eexists. split; [vm_compute; reflexivity|]. split; [vm_compute; reflexivity|]. split; [vm_compute; reflexivity|]. split; [vm_compute; reflexivity|]. split; [vm_compute; reflexivity|]. split; [vm_compute; reflexivity|].
  split; [reflexivity|]. split; [reflexivity|]. split; [vm_compute; reflexivity|]. split; [vm_compute; reflexivity|]. split; [vm_compute; reflexivity|]. vm_compute. reflexivity.
Qed.
Print Assumptions C87_history_refuted.
Close Scope float_scope.
