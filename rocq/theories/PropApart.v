(** C101: bodies that stay clear of each other move as if they were alone *)
From Coq Require Import List Arith ZArith Bool Reals Lra Lia Floats.
From Verif Require Import Num Tensor Utils Bodies Forces Constraints Contacts World Lapack LapackRef Pdipm Lcp Engines Spec GeoSpec JointSpec FreshSpec ContactSpec EngineSpec LapackSpec StaticsSpec ApartSpec
     RBase ResFacts LuFacts HistFacts FlightFacts HandlerFacts CacheFacts FreshFacts RunTotal BesideRun ApartFacts ApartEx CornerEx FloatEx RealEx ContactEx.
Import ListNotations.
Open Scope R_scope.

(** The constructor of a strict world accepts bodies that exclude each other or have more than eps of room, and
    finds no contacts. *)
Theorem C101_starts :
  forall gf o bs js hh dt eps tol fd ps,
    broadphase_sane o -> bs <> [] -> Forall (handled gf) bs -> NoDup (map b_id bs) -> Forall (built bs) js ->
    all_room eps bs (map b_p bs) ->
    exists w, world_init o (diff_handler gf o) hh bs js dt eps tol fd ps true = Ok w /\ w_contacts w = [].
Proof. exact room_starts. Qed.
Print Assumptions C101_starts.
(** While the bodies, each on its own way (some held at rest by joints in balance, the others coasting under the
    external forces), keep more than eps of room, run_world shows exactly these ways, and no contacts. *)
Theorem C101_runs :
  forall gf o bs js hh dt eps tol ps st w rest F la mi K lfuel fuel run_time,
    broadphase_sane o -> Forall (handled gf) bs -> NoDup (map b_id bs) -> Forall (built bs) js ->
    world_init o (diff_handler gf o) hh bs js dt eps tol 2 ps st = Ok w -> loop_free js -> Forall (fun b : body R => 0 < b_mass b /\ 0 < b_inertia b) bs ->
    (forall t, world_apply_forces w t = Ok (F t)) -> jointed w rest F -> lapack_ok la -> (0 < mi)%nat ->
    (forall m, (m < K)%nat -> in_balance w rest (F (INR m * dt))) ->
    (forall m, (m <= K)%nat -> all_room eps bs (map fst (coasting w rest F m))) ->
    (forall m, (m < K)%nat -> INR m * dt < run_time) -> run_time <= INR K * dt -> (K < fuel)%nat ->
    exists w', run_world fuel (S lfuel) o (diff_handler gf o) (pdipm_engine la mi) run_time w = Ok w' /\
      map (fun b => (b_p b, b_v b)) (w_bodies w') = coasting w rest F K /\ w_t w' = INR K * dt /\ w_contacts w' = [].
Proof. exact room_runs. Qed.
Print Assumptions C101_runs.
(** A circle and another body have room if discs around them are further apart, however the bodies are turned. *)
Theorem C101_discs :
  forall d b1 p1 b2 p2 r1 r2,
    is_circle b1 = true \/ is_circle b2 = true -> inside r1 b1 -> inside r2 b2 -> 0 <= r1 -> 0 <= r2 -> 0 <= d ->
    r1 + r2 + d < dist (snd p1) (snd p2) -> room d b1 p1 b2 p2.
Proof. intros. unfold room. destruct (is_circle b1 || is_circle b2) eqn:E; [eapply discs_strip; eauto|]. apply orb_false_iff in E. destruct E. destruct H; congruence. Qed.
Print Assumptions C101_discs.
(** Room says what it should: no point of the one body is within [d] of a point of the other. *)
Theorem C101_room :
  forall d b1 p1 b2 p2 q1 q2, tidy b1 -> tidy b2 -> room d b1 p1 b2 p2 -> occupies b1 p1 q1 -> occupies b2 p2 q2 -> d < dist q1 q2.
Proof. exact room_far. Qed.
Print Assumptions C101_room.

(** Distance alone is not enough for two polygons: two squares, corner to corner and further apart than eps, are
    given a contact when the world is built, ... *)
Theorem C101_polygons_refuted :
  exists b1 b2 w q,
    rect_init 0 [0; 0] (2, 2) [0; 0; 0] 1 (1/2) 0 (1/10) = Ok b1 /\ rect_init 1 [209/100; - (205/100)] (2, 2) [0; 0; 0] 1 (1/2) 0 (1/10) = Ok b2 /\
    world_init pair_oracle (diff_handler 18 pair_oracle) [] [b1; b2] [] (1/30) (1/10) (1/100) 2 true true = Ok w /\
    (forall q1 q2, body_points b1 q1 -> body_points b2 q2 -> w_eps w < dist q1 q2) /\ map c_pen (w_contacts w) = [q] /\ - w_eps w < q.
Proof. exact corners_miss. Qed.
Print Assumptions C101_polygons_refuted.
(** ... though not in the mirror image. *)
Theorem C101_mirror :
  exists b1 b2 w,
    rect_init 0 [0; 0] (2, 2) [0; 0; 0] 1 (1/2) 0 (1/10) = Ok b1 /\ rect_init 1 [209/100; 205/100] (2, 2) [0; 0; 0] 1 (1/2) 0 (1/10) = Ok b2 /\
    world_init pair_oracle (diff_handler 18 pair_oracle) [] [b1; b2] [] (1/30) (1/10) (1/100) 2 true true = Ok w /\ w_contacts w = [].
Proof. exact corners_mirrored. Qed.
Print Assumptions C101_mirror.

(** a square that turns above another one, and a disc that leaves: for any number of steps *)
Example C101_case : forall k, exists bs w w',
  Forall (handled 18) bs /\ all_room (1 / 10) bs (map b_p bs) /\ length bs = 3%nat /\
  world_init pair_oracle (diff_handler 18 pair_oracle) [] bs [] (1 / 30) (1 / 10) (1 / 100) 2 true true = Ok w /\
  (forall m, all_room (1 / 10) bs (map fst (coasting w (fun _ => false) (fun _ => vzeros 9) m))) /\
  run_world (S k) 9 pair_oracle (diff_handler 18 pair_oracle) (pdipm_engine ref_lapack 10) (INR k * (1 / 30)) w = Ok w' /\
  map b_p (w_bodies w') = [(0, (0, -10)); (INR k * (1 / 30), (0, 0)); (0, (5 + INR k * (1 / 30), 0))].
Proof. exact turning_square. Qed.

(** The finding in doubles: the same two squares, built by the model's constructors (bodies.py Rect,
    world.py World.__init__) over binary64.  One contact, with a gap below eps on record, against
    none in the mirror image. *)
Open Scope float_scope.
Definition two_squares (y : float) : res (world float) :=
  do b1 <- rect_init 0 [0; 0] (2, 2) [0; 0; 0] 1 0.5 0 0.1;
  do b2 <- rect_init 1 [2.09; y] (2, 2) [0; 0; 0] 1 0.5 0 0.1;
  world_init pair_oracle (diff_handler 18 pair_oracle) [] [b1; b2] [] 0.03125 0.1 0.01 2 true true.
Close Scope float_scope.
Example C101_doubles :
  res_check (two_squares (-2.05)%float) (fun w => match w_contacts w with [c] => PrimFloat.ltb (-0.1)%float (c_pen c) | _ => false end) = true /\
  res_check (two_squares 2.05%float) (fun w => match w_contacts w with [] => true | _ => false end) = true.
Proof. split; vm_compute; reflexivity. Qed.
