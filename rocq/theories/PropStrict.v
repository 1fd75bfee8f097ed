(** Progress of strict worlds *)
From Coq Require Import List Arith ZArith Bool Reals Lra Lia Floats.
From Verif Require Import Num Tensor Utils Bodies Forces Constraints Contacts World Lapack LapackRef Pdipm Lcp Engines
     Spec GeoSpec BodySpec JointSpec EngineSpec ContactSpec RewindSpec StrictSpec ResFacts RBase LapackSpec LuFacts FloatEx RealEx ContactEx EngineEx StrictFacts StrictEx NoRaise.
Import ListNotations.
Open Scope R_scope.

(** C63.  Relied on: each step of a strict world brings the simulation forward.  Finding: a ball that
    fits exactly between two fixed balls freezes the world.  After 20 steps of 1/32 each the clock has
    advanced by less than a millionth (binary64 run of the model, default engine). *)
Theorem C63_refuted : exists w0, slot = Ok w0 /\
  exists w, exec 100 pair_oracle (diff_handler 10 pair_oracle) ref_engine (repeat (OStep false) 20) w0 = Ok w /\
    ((w_dt w =? 0x1p-5) && w_strict w && (w_t w <? 0x1p-20))%float%bool = true.
Proof.
  assert (E : res_check slot (fun w0 => res_check (exec 100 pair_oracle (diff_handler 10 pair_oracle) ref_engine (repeat (OStep false) 20) w0)
    (fun w => ((w_dt w =? 0x1p-5) && w_strict w && (w_t w <? 0x1p-20))%float%bool)) = true) by (vm_compute; reflexivity).
  apply res_check_ok in E. destruct E as (w0 & E0 & E). exists w0. split; [exact E0|]. now apply res_check_ok.
Qed.
Print Assumptions C63_refuted.

(** What holds.  Suppose every two bodies that may collide include a circle and overlap by at most t,
    less than the tolerance.  If the velocities the solver returns move no point faster than s, the
    step returns after finitely many halvings and either takes the whole of dt or more than
    (tol - t) / (4 s). *)
Theorem C63_progress :
  forall la mi gf o bs js w dt v t s,
    lapack_ok la -> session la mi o (diff_handler gf o) bs js w ->
    Forall (fun b => tidy b /\ ContactSpec.in_range b /\ (gjk_rounds b <= gf)%nat) bs ->
    w_strict w = true -> w_post_stab w = false -> 0 < dt -> solved_velocity (pdipm_engine la mi) w dt v ->
    roomy t w -> slower_than s w v -> 0 < s -> t < w_tol w ->
    exists k w', (forall fuel, (k < fuel)%nat -> step_dt fuel o (diff_handler gf o) (pdipm_engine la mi) w dt = Ok w') /\
      w_t w' = w_t w + dt / 2 ^ k /\ (k = 0%nat \/ (w_tol w - t) / (4 * s) < dt / 2 ^ k).
Proof. exact session_progress. Qed.
Print Assumptions C63_progress.
Example C63_case : forall vx vy e vx' vy' e' mi, (0 < mi)%nat -> exists v s,
  session ref_lapack mi pair_oracle (diff_handler 10 pair_oracle) (pair_bodies vx vy e vx' vy' e') [] (pair_world vx vy e vx' vy' e') /\
  Forall (fun b => tidy b /\ ContactSpec.in_range b /\ (gjk_rounds b <= 10)%nat) (pair_bodies vx vy e vx' vy' e') /\
  w_strict (pair_world vx vy e vx' vy' e') = true /\ w_post_stab (pair_world vx vy e vx' vy' e') = false /\
  solved_velocity (pdipm_engine ref_lapack mi) (pair_world vx vy e vx' vy' e') (1/2) v /\
  roomy 0 (pair_world vx vy e vx' vy' e') /\ slower_than s (pair_world vx vy e vx' vy' e') v /\ 0 < s /\ 0 < w_tol (pair_world vx vy e vx' vy' e').
Proof.
  intros vx vy e vx' vy' e' mi Hmi.
  destruct (smooth_progress ref_lapack mi 10 pair_oracle _ [] _ ref_lapack_ok Hmi pair_sane (pair_smooth vx vy e vx' vy' e') [] (1/2) (1/10) (1/100) 2 false (pair_init vx vy e vx' vy' e') 0 [] _ (1/2) 0 eq_refl)
    as (v & Hv & _); [lra|apply pair_room|cbn; lra|].
  destruct (pair_slow vx vy e vx' vy' e' v) as (s & Ps & Hs). exists v, s. split; [apply pair_session|]. split; [apply (ss_shapes _ _ _ _ (pair_smooth vx vy e vx' vy' e'))|].
  split; [reflexivity|]. split; [reflexivity|]. split; [exact Hv|]. split; [apply pair_room|]. split; [exact Hs|]. split; [exact Ps|]. cbn. lra.
Qed.

(** For frictionless bodies whose joints form no loops nothing needs to be assumed about the solver,
    and the world may use post-stabilisation: after every history the next step returns and advances. *)
Theorem C63_smooth :
  forall la mi gf o bs js w0 heap dt eps tol fd ps fuel ops w d t,
    lapack_ok la -> (0 < mi)%nat -> broadphase_sane o -> smooth_strict gf bs js w0 ->
    world_init o (diff_handler gf o) heap bs js dt eps tol fd ps true = Ok w0 ->
    exec fuel o (diff_handler gf o) (pdipm_engine la mi) ops w0 = Ok w -> 0 < d -> roomy t w -> t < w_tol w0 ->
    exists v, solved_velocity (pdipm_engine la mi) w d v /\ forall s, slower_than s w v -> 0 < s ->
      exists k w', (forall fuel', (k < fuel')%nat -> step_dt fuel' o (diff_handler gf o) (pdipm_engine la mi) w d = Ok w') /\
        w_t w' = w_t w + d / 2 ^ k /\ (k = 0%nat \/ (w_tol w0 - t) / (4 * s) < d / 2 ^ k).
Proof. intros la mi gf o bs js w0 heap dt eps tol fd ps fuel ops w d t HL Hmi Ho HS H0. exact (smooth_progress la mi gf o bs js w0 HL Hmi Ho HS heap dt eps tol fd ps H0 fuel ops w d t). Qed.
Print Assumptions C63_smooth.

(** C56 for strict worlds: after every history no number of steps and no run raises an exception; what does not
    return halves its step for ever (the findings of C63). *)
Theorem C56_strict_no_exception :
  forall la mi gf o bs js w0 heap dt eps tol fd ps fuel ops w,
    lapack_ok la -> (0 < mi)%nat -> broadphase_sane o -> smooth_strict gf bs js w0 ->
    world_init o (diff_handler gf o) heap bs js dt eps tol fd ps true = Ok w0 ->
    exec fuel o (diff_handler gf o) (pdipm_engine la mi) ops w0 = Ok w ->
    (forall fuel' fixed x, exec fuel' o (diff_handler gf o) (pdipm_engine la mi) (map OStep fixed) w = Err x -> x = EFuel) /\
    (forall n lfuel rt x, run_world n lfuel o (diff_handler gf o) (pdipm_engine la mi) rt w = Err x -> x = EFuel).
Proof.
  intros la mi gf o bs js w0 heap dt eps tol fd ps fuel ops w HL Hmi Ho HS H0 Hx. split.
  - intros fuel' fixed x. exact (strict_no_raise la mi gf o bs js w0 HL Hmi Ho HS heap dt eps tol fd ps H0 fuel ops w fuel' fixed x Hx).
  - intros n lfuel rt x. exact (strict_run_no_raise la mi gf o bs js w0 HL Hmi Ho HS heap dt eps tol fd ps H0 fuel ops w n lfuel rt x Hx).
Qed.
Print Assumptions C56_strict_no_exception.
Example C63_smooth_case : forall vx vy e vx' vy' e',
  smooth_strict 10 (pair_bodies vx vy e vx' vy' e') [] (pair_world vx vy e vx' vy' e') /\
  world_init pair_oracle (diff_handler 10 pair_oracle) [] (pair_bodies vx vy e vx' vy' e') [] (1/2) (1/10) (1/100) 2 false true = Ok (pair_world vx vy e vx' vy' e') /\
  roomy 0 (pair_world vx vy e vx' vy' e').
Proof. intros. split; [apply pair_smooth|]. split; [apply pair_init|apply pair_room]. Qed.
(** One contact of the callback never reports a deeper penetration than the two bodies overlap. *)
Theorem C63_depth :
  forall gf o eps clk bs i1 i2 b1 b2 cs bs' clk' c t,
    nth_error bs i1 = Some b1 -> nth_error bs i2 = Some b2 -> tidy b1 -> tidy b2 -> is_circle b1 = true \/ is_circle b2 = true ->
    overlap_at_most t b1 b2 -> diff_handler gf o eps clk bs i1 i2 = Ok (cs, bs', clk') -> In c cs -> c_pen c <= t.
Proof. exact handler_depth. Qed.
Print Assumptions C63_depth.
Example C63_depth_case : forall vx vy e vx' vy' e',
  overlap_at_most 0 (disc 0 0 vx vy e 0) (disc 1 2 vx' vy' e' 0) /\
  exists cs bs' clk' c, diff_handler 10 pair_oracle (1/10) 0%nat (pair_bodies vx vy e vx' vy' e') 0%nat 1%nat = Ok (cs, bs', clk') /\ In c cs /\ c_pen c = 0.
Proof.
  intros. split.
  - destruct (pair_room vx vy e vx' vy' e' 0%nat 1%nat _ _ ltac:(discriminate) eq_refl eq_refl) as [[[] _]|[_ G]]; exact G.
  - unfold pair_bodies, two_discs, diff_handler. cbn -[circle_circle disc].
    rewrite disc_touch by lra. do 3 eexists. exists (touch 0 1). split; [reflexivity|]. split; [left; reflexivity|reflexivity].
Qed.
