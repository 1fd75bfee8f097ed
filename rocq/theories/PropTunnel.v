(** Overlaps in strict worlds: at the states between calls, and on the way from one to the next *)
From Coq Require Import List Arith ZArith Bool Reals Lra Lia Floats.
From Verif Require Import Num Tensor Utils Bodies Forces Constraints Contacts World Lapack LapackRef Pdipm Lcp Engines
     Spec GeoSpec BodySpec JointSpec EngineSpec ContactSpec RewindSpec StrictSpec ResFacts RBase LapackSpec LuFacts FloatEx RealEx ContactEx EngineEx StrictFacts StrictEx PropContact TunnelFacts TunnelEx.
Import ListNotations.
Open Scope R_scope.

(** C70.  Relied on: in a strict world no two bodies overlap by more than the tolerance.  Finding: two
    hulls of the general kind do.  Both contain the point (2.75, 2.125) more than 1 inside each of their
    edges, so no shift by 2 separates them; the tolerance is below a millionth, and the constructor, whose
    last line asserts that nothing penetrates, accepts them. *)
Definition strict_hulls : res (world float) := (
  do h1 <- hull_init 0 (0, 0) [(4, 1); (4, 6); (-8, -7)] [0; 0; 0] 1 0.5 0.5 0.125;
  do h2 <- hull_init 1 (5, 0) [(-3, 6); (-5, 3); (8, -9)] [0; 0; 0] 1 0.5 0.5 0.125;
  world_init pair_oracle (diff_handler 18 pair_oracle) [] [h1; h2] [] 0.125 0.125 0x1p-20 2 false true)%float.
Theorem C70_refuted :
  exists w, strict_hulls = Ok w /\
    (w_strict w && negb (w_post_stab w) && (w_tol w =? 0x1p-20)%float &&
     forallb (fun b => deep_inside b (2.75, 2.125)%float 1%float) (w_bodies w) && Nat.eqb (length (w_bodies w)) 2)%bool = true.
Proof. apply res_check_ok. vm_compute. reflexivity. Qed.
Print Assumptions C70_refuted.

(** What holds.  After any history of a strict world, two bodies that may collide overlap by at most the
    tolerance: two circles; a circle of a larger radius than the tolerance and any strictly convex polygon;
    two rectangles, or polygons with the vertices equally far from the centre. *)
Theorem C70_overlap :
  forall gf o fuel e w i j b1 b2,
    strict_run gf o fuel e w -> broadphase_complete o -> i <> j ->
    nth_error (w_bodies w) i = Some b1 -> nth_error (w_bodies w) j = Some b2 -> padded w b1 b2 ->
    ~ excluded b1 b2 -> ~ excluded b2 b1 -> tidy b1 -> tidy b2 -> measured (w_tol w) b1 b2 -> 0 <= w_tol w ->
    overlap_at_most (w_tol w) b1 b2.
Proof. exact strict_run_overlap. Qed.
Print Assumptions C70_overlap.
Example C70_case : exists w b1 b2,
  strict_run 18 pair_oracle 0 free_engine w /\ broadphase_complete (@pair_oracle R) /\
  nth_error (w_bodies w) 0 = Some b1 /\ nth_error (w_bodies w) 1 = Some b2 /\ padded w b1 b2 /\
  ~ excluded b1 b2 /\ ~ excluded b2 b1 /\ tidy b1 /\ tidy b2 /\ is_circle b1 = false /\ is_circle b2 = true /\ measured (w_tol w) b1 b2 /\ 0 <= w_tol w.
Proof.
  destruct box_and_ball as (w & a1 & a2 & H1 & H2 & H3). exists w, a1, a2. rewrite H2. split; [exact H1|]. split; [apply pair_complete|]. split; [reflexivity|]. split; [reflexivity|]. tauto.
Qed.

(** C71.  Relied on: bodies of a strict world cannot pass through each other.  Finding: they can, within
    one step.  A ball of radius 1 at (0, 0) with velocity (64, 0) is behind the ball of radius 1 at (4, 0)
    after one step of 1/8; that one has not moved, the fast one has not slowed down, and there is no
    contact before or after. *)
Theorem C71_refuted : exists w0, shot = Ok w0 /\
  exists w, exec 10 pair_oracle (diff_handler 10 pair_oracle) ref_engine [OStep false] w0 = Ok w /\
    (match w_bodies w0, w_bodies w with
     | [a; b], [a'; b'] =>
         (fst (b_pos a) =? 0) && (fst (b_pos b) =? 4) && (7.5 <? fst (b_pos a')) && (fst (b_pos b') =? 4) &&
         (snd (b_pos a) =? 0) && (snd (b_pos b) =? 0) && (snd (b_pos a') =? 0) && (snd (b_pos b') =? 0) &&
         (b_rad a =? 1) && (b_rad b =? 1) && (fst (snd (b_v a')) =? 64) && (fst (snd (b_v b')) =? 0)
     | _, _ => false
     end%float &&
     w_strict w0 && Nat.eqb (length (w_contacts w0)) 0 && Nat.eqb (length (w_contacts w)) 0)%bool = true.
Proof.
  assert (E : res_check shot (fun w0 => res_check (exec 10 pair_oracle (diff_handler 10 pair_oracle) ref_engine [OStep false] w0) (fun w =>
    (match w_bodies w0, w_bodies w with
     | [a; b], [a'; b'] =>
         (fst (b_pos a) =? 0) && (fst (b_pos b) =? 4) && (7.5 <? fst (b_pos a')) && (fst (b_pos b') =? 4) &&
         (snd (b_pos a) =? 0) && (snd (b_pos b) =? 0) && (snd (b_pos a') =? 0) && (snd (b_pos b') =? 0) &&
         (b_rad a =? 1) && (b_rad b =? 1) && (fst (snd (b_v a')) =? 64) && (fst (snd (b_v b')) =? 0)
     | _, _ => false
     end%float &&
     w_strict w0 && Nat.eqb (length (w_contacts w0)) 0 && Nat.eqb (length (w_contacts w)) 0)%bool)) = true) by (vm_compute; reflexivity).
  apply res_check_ok in E. destruct E as (w0 & E0 & E). exists w0. split; [exact E0|]. now apply res_check_ok.
Qed.
Print Assumptions C71_refuted.

(** What holds.  If no point of the two bodies is faster than y, their overlap during the step never
    exceeds the tolerance by more than y times the duration of the step. *)
Theorem C71_overlap :
  forall gf o fuel e w d w' i j b1 b2 b1' b2' y s,
    strict_run gf o fuel e w -> broadphase_complete o -> step_dt fuel o (diff_handler gf o) e w d = Ok w' -> i <> j ->
    nth_error (w_bodies w) i = Some b1 -> nth_error (w_bodies w) j = Some b2 ->
    nth_error (w_bodies w') i = Some b1' -> nth_error (w_bodies w') j = Some b2' -> padded w b1 b2 ->
    ~ excluded b1 b2 -> ~ excluded b2 b1 -> tidy b1 -> tidy b2 -> measured (w_tol w) b1 b2 -> 0 <= w_tol w ->
    0 <= s <= w_t w' - w_t w ->
    (forall q, body_points b1 q -> dist (snd (b_v b1')) (0, 0) + Rabs (fst (b_v b1')) * dist q (b_pos b1) <= y) ->
    (forall q, body_points b2 q -> dist (snd (b_v b2')) (0, 0) + Rabs (fst (b_v b2')) * dist q (b_pos b2) <= y) ->
    overlap_at_most (w_tol w + y * (w_t w' - w_t w)) (during b1 b1' s) (during b2 b2' s).
Proof.
  intros gf o fuel e w d w' i j b1 b2 b1' b2' y s. intros. eapply strict_run_between; eauto.
Qed.
Print Assumptions C71_overlap.
(** [during] starts at one state and ends at the next. *)
Theorem C71_during :
  forall gf o fuel e w d w' i b b',
    strict_run gf o fuel e w -> step_dt fuel o (diff_handler gf o) e w d = Ok w' ->
    nth_error (w_bodies w) i = Some b -> nth_error (w_bodies w') i = Some b' ->
    (forall q, body_points (during b b' 0) q <-> body_points b q) /\
    (forall q, body_points (during b b' (w_t w' - w_t w)) q <-> body_points b' q).
Proof. exact strict_run_during. Qed.
Print Assumptions C71_during.
(** For two circles the centres keep their distance, up to a term that is at most a quarter of the
    square of how far they move against each other: with A = r1 + r2 - tol, their distance D after s of
    the duration T of the step, and their relative velocity u, D^2 >= A^2 - s (T - s) u^2. *)
Theorem C71_circles :
  forall gf o fuel e w d w' i j b1 b2 b1' b2' s,
    strict_run gf o fuel e w -> broadphase_complete o -> step_dt fuel o (diff_handler gf o) e w d = Ok w' -> i <> j ->
    nth_error (w_bodies w) i = Some b1 -> nth_error (w_bodies w) j = Some b2 ->
    nth_error (w_bodies w') i = Some b1' -> nth_error (w_bodies w') j = Some b2' -> padded w b1 b2 ->
    ~ excluded b1 b2 -> ~ excluded b2 b1 -> is_circle b1 = true -> is_circle b2 = true -> 0 <= w_tol w <= b_rad b1 + b_rad b2 ->
    0 <= s <= w_t w' - w_t w ->
    let A := b_rad b1 + b_rad b2 - w_tol w in
    let D := dist (b_pos (during b1 b1' s)) (b_pos (during b2 b2' s)) in
    let u := dist (snd (b_v b1')) (snd (b_v b2')) in
    A * A - s * (w_t w' - w_t w - s) * (u * u) <= D * D.
Proof. exact strict_run_circles. Qed.
Print Assumptions C71_circles.
Example C71_case : forall vx vy e vx' vy' e' mi, (0 < mi)%nat -> let w := pair_world vx vy e vx' vy' e' in exists k w' b1 b2 b1' b2' y,
  strict_run 10 pair_oracle (S k) (pdipm_engine ref_lapack mi) w /\ broadphase_complete (@pair_oracle R) /\
  step_dt (S k) pair_oracle (diff_handler 10 pair_oracle) (pdipm_engine ref_lapack mi) w (1/2) = Ok w' /\
  nth_error (w_bodies w) 0 = Some b1 /\ nth_error (w_bodies w) 1 = Some b2 /\
  nth_error (w_bodies w') 0 = Some b1' /\ nth_error (w_bodies w') 1 = Some b2' /\ padded w b1 b2 /\
  ~ excluded b1 b2 /\ ~ excluded b2 b1 /\ tidy b1 /\ tidy b2 /\ is_circle b1 = true /\ is_circle b2 = true /\ 0 <= w_tol w <= b_rad b1 + b_rad b2 /\ w_t w < w_t w' /\
  (forall q, body_points b1 q -> dist (snd (b_v b1')) (0, 0) + Rabs (fst (b_v b1')) * dist q (b_pos b1) <= y) /\
  (forall q, body_points b2 q -> dist (snd (b_v b2')) (0, 0) + Rabs (fst (b_v b2')) * dist q (b_pos b2) <= y).
Proof. exact pair_step. Qed.
