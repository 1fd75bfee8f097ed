(** C90: the gradient demo *)
From Coq Require Import List Arith ZArith Bool Reals Lra Lia.
From Verif Require Import Num Tensor Utils Bodies Forces Constraints Contacts World Lapack Pdipm Engines GradDemo Spec GeoSpec LapackSpec GradDemoSpec LuFacts LapackRef FloatEx ContactEx GradDemoFacts.
Import ListNotations.
Open Scope R_scope.

(** As long as the pushed ball is too far from the other one for a contact, the world of the demo is made
    and runs, and the bodies are where Newton's law puts them: the ball whose distance is measured has not moved *)
Theorem C90_course : forall gf (o : oracle R) la mi f K fuel lfuel run_time,
  broadphase_sane o -> lapack_ok la -> (0 < mi)%nat -> (2 <= gf)%nat -> misses f K ->
  (forall m, (m < K)%nat -> INR m / 30 < run_time) -> run_time <= INR K / 30 -> (K < fuel)%nat ->
  exists w w', make_world o (diff_handler gf o) f = Ok w /\
    run_world fuel (S lfuel) o (diff_handler gf o) (pdipm_engine la mi) run_time w = Ok w' /\
    map b_pos (w_bodies w') = [(500, 300); course f (reach K); (400, 250)] /\ w_contacts w' = [] /\ w_t w' = INR K / 30.
Proof. intros gf o la mi f K fuel lfuel run_time Ho HL Hmi Hg. exact (demo_course gf o la mi Ho HL Hmi Hg f K fuel lfuel run_time). Qed.

(** The measured distance does not depend on such a force: its gradient is 0, and nothing else *)
Theorem C90_plateau : forall gf (o : oracle R) la mi fuel lfuel f,
  broadphase_sane o -> lapack_ok la -> (0 < mi)%nat -> (2 <= gf)%nat -> (210 < fuel)%nat -> misses f 210 ->
  measure fuel (S lfuel) o (diff_handler gf o) (pdipm_engine la mi) f = Ok (50 * sqrt 5) /\
  forall g, gradient_of (measure fuel (S lfuel) o (diff_handler gf o) (pdipm_engine la mi)) f g <-> g = (0, (0, 0)).
Proof.
  intros gf o la mi fuel lfuel f Ho HL Hmi Hg Hfu H. split; [exact (far_distance gf o la mi Ho HL Hmi Hg fuel lfuel Hfu f H)|]. intros g. exact (flat gf o la mi Ho HL Hmi Hg fuel lfuel Hfu f g H).
Qed.

(** So nothing is learned: from such a force, and with the gradients the demo is meant to get, the demo
    stops in its second round with the force it began with *)
Theorem C90_stuck : forall gf (o : oracle R) la mi fuel lfuel grad f,
  broadphase_sane o -> lapack_ok la -> (0 < mi)%nat -> (2 <= gf)%nat -> (210 < fuel)%nat ->
  (forall g, gradient_of (measure fuel (S lfuel) o (diff_handler gf o) (pdipm_engine la mi)) f g -> grad f = g) -> misses f 210 ->
  exists w, grad_demo fuel (S lfuel) o (diff_handler gf o) (pdipm_engine la mi) grad f = Ok (f, w, 50 * sqrt 5, [50 * sqrt 5]) /\
    map b_pos (w_bodies w) = [(500, 300); course f (209 / 3); (400, 250)].
Proof. intros gf o la mi fuel lfuel grad f Ho HL Hmi Hg Hfu. exact (stuck gf o la mi Ho HL Hmi Hg fuel lfuel Hfu grad f). Qed.

(** Pushes of size at most 1, and pushes of any size away from the ball, miss it; the push the demo begins
    with, 3 to the right, reaches it *)
Theorem C90_weak : forall f : v3 R, fst (snd f) * fst (snd f) + snd (snd f) * snd (snd f) <= 1 \/ fst (snd f) <= 0 -> misses f 210.
Proof. intros f [H|H]; [exact (weak_misses f H)|exact (away_misses f H)]. Qed.
Theorem C90_shipped : ~ misses (0, (3, 0)) 210.
Proof. exact shipped_reaches. Qed.

(** With any engine, contact detection and gradients: the last run is made with the last force, but the
    distance printed after it was measured one update earlier *)
Theorem C90_report : forall fuel lfuel (o : oracle R) hd e grad f0 f w d hist,
  grad_demo fuel lfuel o hd e grad f0 = Ok (f, w, d, hist) ->
  run fuel lfuel o hd e f = Ok w /\
  exists before rate, measure fuel lfuel o hd e before = Ok d /\ f = shifted before (grad before) (- rate).
Proof. exact report. Qed.

(** a push that misses, with the reference linear algebra and all pairs reported *)
Example C90_case : exists w, grad_demo 300 1 (pair_oracle (T := R)) (diff_handler 2 pair_oracle) (pdipm_engine ref_lapack 1) (fun _ => (0, (0, 0))) (0, (-3, 0)) =
    Ok ((0, (-3, 0)), w, 50 * sqrt 5, [50 * sqrt 5]) /\
  map b_pos (w_bodies w) = [(500, 300); (41, 210); (400, 250)].
Proof.
  assert (M : misses (0, (-3, 0)) 210) by (apply C90_weak; right; cbn; lra). assert (G : (210 < 300)%nat) by (apply Nat.ltb_lt; reflexivity).
  destruct (C90_stuck 2 pair_oracle ref_lapack 1 300 0 (fun _ => (0, (0, 0))) (0, (-3, 0))) as (w & E & P); auto using ref_lapack_ok.
  - exact pair_sane.
  - intros g Hg. symmetry. exact (proj1 (proj2 (C90_plateau 2 pair_oracle ref_lapack 1 300 0 (0, (-3, 0)) pair_sane ref_lapack_ok (le_n 1) (le_n 2) G M) g) Hg).
  - exists w. split; [exact E|]. rewrite P. unfold course. cbn [fst snd]. apply f_equal2; [reflexivity|]. apply f_equal2; [|reflexivity]. apply f_equal2; field.
Qed.

(** What is printed is not the distance of the last run: the demo as shipped, in floating point, with the
    reference linear algebra and a gradient that is roughly right (the true one points in about this direction) *)
From Coq Require Import Floats.
Open Scope float_scope.
Definition rough (f : v3 float) : v3 float := (0, (0, 400 * snd (snd f) - 80)).
Theorem C90_report_refuted : exists f w d hist d',
  grad_demo 300 100 pair_oracle (diff_handler 10 pair_oracle) ref_engine rough (0, (3, 0)) = Ok (f, w, d, hist) /\
  distance w = Ok d' /\ (d' <? d) = true.
Proof. do 5 eexists. split; [vm_compute; reflexivity|]. split; vm_compute; reflexivity. Qed.
Close Scope float_scope.

Print Assumptions C90_course.
Print Assumptions C90_plateau.
Print Assumptions C90_stuck.
Print Assumptions C90_weak.
Print Assumptions C90_shipped.
Print Assumptions C90_report.
Print Assumptions C90_report_refuted.
