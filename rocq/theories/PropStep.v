(** C01, C03, C04, C05: penetration guarantee and time *)
From Coq Require Import List Arith ZArith Lia Bool Reals Lra Floats.
From Verif Require Import Num Tensor Bodies Forces Constraints Contacts World Lapack LapackRef Engines
     Spec WorldFacts RBase TimeFacts FloatEx RealEx.
Import ListNotations.

(** C01.  Strict world without post-stabilisation: after the constructor and any history of calls
    that return, every contact has penetration <= tol.  For every arithmetic [Num T]. *)
Theorem C01_strict_no_penetration :
  forall (T : Type) (N : Num T) fuel (o : oracle T) (hd : handler T) (e : engine T)
         heap bodies constraints dt eps tol fric_dirs ops w0 w,
    world_init o hd heap bodies constraints dt eps tol fric_dirs
               (* post_stab *) false (* strict_no_penetration *) true = Ok w0 ->
    exec fuel o hd e ops w0 = Ok w ->
    forall c, In c (w_contacts w) -> nleb (c_pen c) tol = true.
Proof.
  intros. pose proof (strict_no_penetration _ _ _ _ _ _ _ _ _ _ _ _ _ _ H H0) as F.
  rewrite Forall_forall in F. auto.
Qed.
Print Assumptions C01_strict_no_penetration.

(** a world where the guarantee does something: a fast circle hits one at rest; the run of three
    steps rejects several trial moves and ends with a contact *)
Open Scope float_scope.
Definition C01_world : res (world float) :=
  do b1 <- circle_init 0 [0; 0] 1 [0; 8; 0] 1 0.5 0.5 0.125;
  do b2 <- circle_init 1 [10.0625; 0] 1 [0; 0; 0] 1 0.5 0.5 0.125;
  do b3 <- circle_init 2 [12.25; 0] 1 [0; 0; 0] 1 0.5 0.5 0.125;
  world_init pair_oracle (diff_handler 10 pair_oracle) [] [b1; b2; b3] [] 1 0.125 0x1p-20 2 false true.
Example C01_case :
  exists w, (do w0 <- C01_world;
             exec 20 pair_oracle (diff_handler 10 pair_oracle) ref_engine
                  [OStep true; OStep false; OStep false] w0) = Ok w /\
            Nat.ltb 0 (length (w_contacts w)) = true.
Proof. apply res_check_ok. vm_compute. reflexivity. Qed.
Close Scope float_scope.

Open Scope R_scope.
(** C03.  A step advances time by dt / 2^k, k the number of rejected trial moves. *)
Theorem C03_step_time :
  forall fuel (o : oracle R) hd e w dt w',
    step_dt fuel o hd e w dt = Ok w' ->
    exists k start v cache,
      (** start: the world the trial moves begin from, with the velocity the engine computed *)
      e_solve e w dt = Ok (v, cache) /\ set_v (with_cache w cache) v = Ok start /\
      (exists w'' dt', tries o hd (cat3 (map b_p (w_bodies w)))
                             (map (fun '(j, _, _) => (j_rot1 j, j_rot2 j)) (w_joints w))
                             start dt k w'' dt') /\
      w_t w' = w_t w + dt / 2 ^ k.
Proof.
  intros fuel o hd e w dt w' H. apply step_dt_inv in H.
  destruct H as (nv & c & w1 & k & w2 & dt' & w3 & E1 & E2 & _ & Htr & H3 & Hc3 & Ht3 & ->).
  exists k, w1, nv, c. split; [exact E1|]. split; [exact E2|]. split; [eauto|].
  simpl. rewrite (tries_dt _ _ _ _ _ _ _ _ _ Htr). reflexivity.
Qed.
Print Assumptions C03_step_time.

Theorem C03_step_time_bounds :
  forall fuel (o : oracle R) hd e w dt w',
    step_dt fuel o hd e w dt = Ok w' -> 0 < dt -> w_t w < w_t w' <= w_t w + dt.
Proof.
  intros fuel o hd e w dt w' H Hdt. apply step_dt_time in H. destruct H as [k ->].
  pose proof (div_pow2_bounds dt k Hdt). lra.
Qed.
Print Assumptions C03_step_time_bounds.

Theorem C03_time_monotone :
  forall fuel (o : oracle R) hd e ops w w',
    0 <= w_dt w -> (forall dt, In (OStepDt dt) ops -> 0 <= dt) -> exec fuel o hd e ops w = Ok w' -> w_t w <= w_t w'.
Proof.
  intros fuel o hd e ops w w' Hdt Hp. apply exec_time_monotone; auto. apply Forall_forall. intros [fx|dt|v] Hx; cbn; auto.
Qed.
Print Assumptions C03_time_monotone.

(** a step of length 1/2 that is halved once *)
Example C03_case :
  exists w, step_dt 5 pair_oracle ex_hd free_engine (exw true 0 0 [] 1) (1 / 2) = Ok w /\
            w_t w = 0 + (1 / 2) / 2 ^ 1.
Proof.
  destruct (ex_step_dt true 5) as (w & E & ->); [lia|]. exists (exw true (0 + 4 * (1 / 2 / 2)) (0 + 1 / 2 / 2) [exc (0 + 4 * (1 / 2 / 2))] 3).
  split; [exact E|]. simpl. lra.
Qed.

(** C04.  step(fixed_dt=True) lands exactly on t + dt. *)
Theorem C04_fixed_step :
  forall fuel (o : oracle R) hd e w w',
    0 <= w_dt w -> step fuel o hd e true w = Ok w' -> w_t w' = w_t w + w_dt w.
Proof.
  intros fuel o hd e w w' Hdt H. eapply fixed_step_time; [|exact H]. rnum. lra.
Qed.
Print Assumptions C04_fixed_step.

Theorem C04_fixed_step_any_arithmetic :
  forall (T : Type) (N : Num T) fuel (o : oracle T) hd e w w',
    step fuel o hd e true w = Ok w' -> nltb (w_t w') (nadd (w_t w) (w_dt w)) = false.
Proof.
  intros T N fuel o hd e w w' H. unfold step in H.
  apply (fixed_loop_inv _ _ _ _ _ _ _ _ (fun _ => True)) in H; auto. tauto.
Qed.
Print Assumptions C04_fixed_step_any_arithmetic.

(** n calls advance time by exactly n*dt *)
Theorem C04_fixed_history :
  forall fuel (o : oracle R) hd e n w w',
    0 <= w_dt w -> exec fuel o hd e (repeat (OStep true) n) w = Ok w' ->
    w_t w' = w_t w + INR n * w_dt w.
Proof. exact fixed_history_time. Qed.
Print Assumptions C04_fixed_history.

Example C04_case : exists w w', ex_init false = Ok w /\ 0 <= w_dt w /\
  step 5 pair_oracle ex_hd stop_engine true w = Ok w' /\ w_t w' = 0 + 1 / 2 /\
  (** find_contacts ran three times: one rejected and two accepted moves *) w_clk w' = 4%nat.
Proof. exact (ex_fixed_step false). Qed.

(** C05.  Non-strict worlds: at most three halvings, so progress; run_world terminates. *)
Theorem C05_progress :
  forall (P : world R -> Prop) fuel (o : oracle R) hd e w,
    returns_on P o hd e -> P w -> w_strict w = false -> 0 < w_dt w -> (4 <= fuel)%nat ->
    exists w' k, step fuel o hd e false w = Ok w' /\ P w' /\ cfg w' = cfg w /\
                 (k <= 3)%nat /\ w_t w' = w_t w + w_dt w / 2 ^ k.
Proof. exact nonstrict_step. Qed.
Print Assumptions C05_progress.

Theorem C05_run_world_terminates :
  forall (P : world R -> Prop) (o : oracle R) hd e run_time n lfuel w,
    returns_on P o hd e -> P w -> w_strict w = false -> 0 < w_dt w -> (4 <= lfuel)%nat ->
    (** n = ceil(8 * (run_time - t) / dt) iterations are enough *)
    8 * (run_time - w_t w) / w_dt w <= INR n -> w_t w < run_time + w_dt w ->
    exists w', run_world (S n) lfuel o hd e run_time w = Ok w' /\ P w' /\
               run_time <= w_t w' < run_time + w_dt w.
Proof.
  intros P o hd e run_time n lfuel w Hr Hw Hs Hdt Hl Hn Ht.
  eapply (nonstrict_run P); eauto.
  apply Rmult_le_compat_r with (r := w_dt w) in Hn; [|lra].
  unfold Rdiv in *. rewrite Rmult_assoc, Rinv_l in Hn by lra. lra.
Qed.
Print Assumptions C05_run_world_terminates.

(** the hypotheses hold for every world of circles with the default callback and any engine that
    returns; here, a world with two circles that collide *)
Example C05_case :
  returns_on circles pair_oracle ex_hd free_engine /\ circles (exw false 0 0 [] 1) /\
  w_strict (exw false 0 0 [] 1) = false /\ 0 < w_dt (exw false 0 0 [] 1) /\
  8 * (7 - w_t (exw false 0 0 [] 1)) / w_dt (exw false 0 0 [] 1) <= INR 112.
Proof.
  split; [|split; [|split; [|split]]].
  - apply circles_return.
    + intros k gs i j H. apply all_pairs_spec in H. lia.
    + intros w dt (_ & _ & H). eexists _, _. split; [reflexivity|exact H].
    + intros w (_ & _ & H). eexists. split; [reflexivity|exact H].
  - split; [repeat constructor|]. split; [constructor|reflexivity].
  - reflexivity.
  - simpl; lra.
  - replace (INR 112) with 112 by (simpl; lra). simpl. lra.
Qed.
