(** The clock in double precision *)
From Flocq Require Import Core.
From Coq Require Import List Arith ZArith Bool Reals Lra Lia Floats.
From Verif Require Import Num Tensor Utils Bodies Forces Constraints Contacts World Lapack LapackRef Pdipm Lcp Engines
     Spec FloatSpec FloatTime ClockFacts ClockEnds FloatEx ClockEx.
Import ListNotations.
Open Scope R_scope.

(** C69.  Relied on: in the doubles the simulator computes with, step(fixed_dt=True) ends on t + dt,
    and run_world returns.  Finding: a ball bounces off a fixed disc during the first call, and the
    clock ends on the double after dt. *)
Theorem C69_refuted : exists w0 w, bounce = Ok w0 /\
  step 50 pair_oracle (diff_handler 10 pair_oracle) ref_engine true w0 = Ok w /\
  (w_t w =? next (w_t w0 + w_dt w0))%float = true /\ (w_t w0 + w_dt w0 <? w_t w)%float = true.
Proof.
  assert (E : res_check bounce (fun w0 => res_check (step 50 pair_oracle (diff_handler 10 pair_oracle) ref_engine true w0)
    (fun w => ((w_t w =? next (w_t w0 + w_dt w0)) && (w_t w0 + w_dt w0 <? w_t w))%float%bool)) = true) by (vm_compute; reflexivity).
  apply res_check_ok in E. destruct E as (w0 & E0 & E). apply res_check_ok in E. destruct E as (w & E1 & E). exists w0, w. split; [exact E0|]. split; [exact E1|].
  apply andb_prop in E. destruct E as [E E3]. auto.
Qed.
Print Assumptions C69_refuted.
(** and once t has reached 2^53 dt the clock stands still: every call of step returns with the same
    t, and run_world never returns *)
Theorem C69_run_refuted : exists w0 w, lone = Ok w0 /\
  exec 1 pair_oracle (ode_handler pair_oracle) ref_engine [OStepDt 0x1p47%float] w0 = Ok w /\
  (forall fuel, exists w', step (S fuel) pair_oracle (ode_handler pair_oracle) ref_engine false w = Ok w' /\ w_t w' = w_t w) /\
  (forall n fuel, run_world n (S fuel) pair_oracle (ode_handler pair_oracle) ref_engine 0x1p48%float w = Err EFuel).
Proof.
  pose proof lone_late as E. destruct lone as [w0|x]; [|discriminate]. exists w0, (late 2). repeat split; [exact E| |intros; apply late_runs].
  intros fuel. exists (late 3). split; [apply late_stays|reflexivity].
Qed.
Print Assumptions C69_run_refuted.

(** What holds, for every engine, callback and oracle, strict or not, with any number of halvings.
    From the second call on, the clock of step(fixed_dt=True) is exactly the sum of the steps as
    Python adds them up. *)
Theorem C69_fixed_history :
  forall (N : Num float) fuel (o : oracle float) (hd : handler float) (e : engine float) n w w',
    doubles N -> exec fuel o hd e (repeat (OStep true) n) w = Ok w' ->
    finite (w_t w) -> finite (w_dt w) -> 0 < value (w_dt w) <= value (w_t w) -> finite (ticks n (w_dt w) (w_t w)) ->
    w_t w' = ticks n (w_dt w) (w_t w).
Proof. intros N fuel o hd e n w w' HN. exact (fixed_ticks HN fuel o hd e n w w'). Qed.
Print Assumptions C69_fixed_history.
(** Any call ends on t + dt or on the double after it. *)
Theorem C69_fixed_call :
  forall (N : Num float) fuel (o : oracle float) (hd : handler float) (e : engine float) w w',
    doubles N -> step fuel o hd e true w = Ok w' ->
    finite (w_t w) -> finite (w_dt w) -> 0 <= value (w_t w) -> 0 < value (w_dt w) -> finite (w_t w + w_dt w)%float -> finite (next (w_t w + w_dt w)%float) ->
    w_t w' = (w_t w + w_dt w)%float \/ w_t w' = next (w_t w + w_dt w)%float.
Proof. intros N fuel o hd e w w' HN. exact (fixed_either HN fuel o hd e w w'). Qed.
Print Assumptions C69_fixed_call.
(** Without strict_no_penetration run_world(run_time) returns (or raises) after at most 16 steps per
    dt, between run_time and run_time + dt, if run_time is at most 2^48 dt and dt is not tiny. *)
Theorem C69_run_world :
  forall (N : Num float) (o : oracle float) (hd : handler float) (e : engine float) run_time lfuel n w,
    doubles N -> callbacks_end hd e -> (4 <= lfuel)%nat -> w_strict w = false ->
    finite (w_dt w) -> bpow radix2 (-1000) <= value (w_dt w) ->
    finite run_time -> finite (run_time + w_dt w)%float -> value run_time <= bpow radix2 48 * value (w_dt w) ->
    finite (w_t w) -> 0 <= value (w_t w) -> value run_time <= value (w_t w) + INR n * (value (w_dt w) / 16) ->
    ends (run_world (S n) lfuel o hd e run_time w) /\
    (forall w', run_world (S n) lfuel o hd e run_time w = Ok w' -> value (w_t w) <= value (run_time + w_dt w)%float ->
       value run_time <= value (w_t w') <= value (run_time + w_dt w)%float).
Proof.
  intros N o hd e rt lf n w HN Hc Hl S Fd Hd Fr Fb Hr Ft Ht Hn.
  destruct (run_clock HN (w_dt w) Hd Fd o hd e rt lf Hc Hl Fr Fb Hr n w eq_refl S Ft Ht Hn) as [H1 H2]. split; [exact H1|]. intros w' E U. now apply H2.
Qed.
Print Assumptions C69_run_world.
(** the package's engine and its ODE callback end on every input if the factorisations do *)
Theorem C69_callbacks : forall (T : Type) (N : Num T) (la : lapack T) (o : oracle T) mi, lapack_ends la -> callbacks_end (ode_handler o) (pdipm_engine la mi).
Proof. intros T N la o mi H. exact (ode_ends la H o mi). Qed.
Print Assumptions C69_callbacks.
(** the bouncing ball, from its second step on: the calls subdivide and end on the sums *)
Example C69_case : exists w0 w1 w3, bounce = Ok w0 /\
  step 50 pair_oracle (diff_handler 10 pair_oracle) ref_engine true w0 = Ok w1 /\
  doubles FN /\ finite (w_t w1) /\ finite (w_dt w1) /\ 0 < value (w_dt w1) <= value (w_t w1) /\ finite (ticks 3 (w_dt w1) (w_t w1)) /\
  exec 50 pair_oracle (diff_handler 10 pair_oracle) ref_engine (repeat (OStep true) 3) w1 = Ok w3.
Proof.
  assert (E : res_check bounce (fun w0 => res_check (step 50 pair_oracle (diff_handler 10 pair_oracle) ref_engine true w0)
    (fun w => (PrimFloat.is_finite (w_t w) && PrimFloat.is_finite (w_dt w) && PrimFloat.is_finite (ticks 3 (w_dt w) (w_t w)) && (0 <? w_dt w) && (w_dt w <=? w_t w) && res_check (exec 50 pair_oracle (diff_handler 10 pair_oracle) ref_engine (repeat (OStep true) 3) w) (fun _ => true))%float%bool)) = true) by (vm_compute; reflexivity).
  apply res_check_ok in E. destruct E as (w0 & E0 & E). apply res_check_ok in E. destruct E as (w1 & E1 & E).
  apply andb_prop in E. destruct E as [E E6]. apply andb_prop in E. destruct E as [E E5]. apply andb_prop in E. destruct E as [E E4]. apply andb_prop in E. destruct E as [E E3]. apply andb_prop in E. destruct E as [E2 E].
  apply res_check_ok in E6. destruct E6 as (w3 & E6 & _). exists w0, w1, w3. split; [exact E0|]. split; [exact E1|]. split; [repeat eexists|]. split; [exact E2|]. split; [exact E|]. split; [|split; [exact E3|exact E6]].
  split; [|now apply leb_val]. rewrite <- zero_val. apply ltb_val; auto. reflexivity.
Qed.
Example C69_run_case : exists w, lone = Ok w /\ w_strict w = false /\ doubles FN /\ callbacks_end (ode_handler (T := float) pair_oracle) ref_engine /\
  finite (w_dt w) /\ bpow radix2 (-1000) <= value (w_dt w) /\ finite 1000 /\ finite (1000 + w_dt w)%float /\ value 1000 <= bpow radix2 48 * value (w_dt w) /\ finite (w_t w) /\ 0 <= value (w_t w) /\
  exists n, value 1000 <= value (w_t w) + INR n * (value (w_dt w) / 16).
Proof.
  destruct lone as [w|] eqn:E; [|discriminate E]. exists w. assert (D : w_dt w = 0x1p-6%float) by (vm_compute in E; injection E as <-; reflexivity). assert (S : w_strict w = false) by (vm_compute in E; injection E as <-; reflexivity). assert (T : w_t w = 0%float) by (vm_compute in E; injection E as <-; reflexivity). clear E.
  rewrite D, T. assert (V : value 0x1p-6 = / 64). { rewrite value_sf. change (FloatOps.Prim2SF 0x1p-6) with (S754_finite false 4503599627370496 (-58)). unfold BinarySingleNaN.SF2R, F2R. cbn [cond_Zopp Fnum Fexp]. change (bpow radix2 (-58)) with (/ IZR (2 ^ 58)). change (2 ^ 58)%Z with 288230376151711744%Z. field. }
  assert (V1 : value 1000 = 1000). { rewrite value_sf. change (FloatOps.Prim2SF 1000) with (S754_finite false 8796093022208000 (-43)). unfold BinarySingleNaN.SF2R, F2R. cbn [cond_Zopp Fnum Fexp]. change (bpow radix2 (-43)) with (/ IZR (2 ^ 43)). change (2 ^ 43)%Z with 8796093022208%Z. field. }
  rewrite V, V1, zero_val. split; [reflexivity|]. split; [exact S|]. split; [repeat eexists|]. split; [apply ode_ends, ref_ends|]. split; [reflexivity|].
  split; [replace (/ 64) with (bpow radix2 (-6)) by (simpl; lra); apply bpow_le; lia|]. split; [reflexivity|]. split; [vm_compute; reflexivity|]. split; [change (bpow radix2 48) with 281474976710656; lra|]. split; [reflexivity|]. split; [lra|].
  exists (1000 * 1024)%nat. rewrite INR_IZR_INZ. replace (Z.of_nat (1000 * 1024)) with 1024000%Z by lia. lra.
Qed.
