(** Concrete worlds for the examples about the clock *)
From Coq Require Import List Arith ZArith Bool Floats.
From Verif Require Import Num Tensor Utils Bodies Forces Constraints Contacts World Lapack LapackRef Pdipm Lcp Engines Spec FloatSpec FloatEx.
Import ListNotations.
Open Scope float_scope.

(** a ball bounces off a disc held in place *)
Definition bounce : res (world float) :=
  do b1 <- circle_init 0 [0; 0] 1 [0; 0; 0] 1 0.5 0 0.125;
  do b2 <- circle_init 1 [2.421875; 0] 1 [0; (-32); 0] 1 0.5 0 0.125;
  world_init pair_oracle (diff_handler 10 pair_oracle) [] [b1; b2] [total_init b1] 0x1.cd613d8f16adfp-6 0.125 0x1p-20 2 false false.

(** one body at rest, steps of 1/64 *)
Definition lone_body : list (body float) := match circle_init 0 [0; 0] 1 [0; 0; 0] 1 0.5 0 0.125 with Ok b => [b] | Err _ => [] end.
Definition lone : res (world float) := world_init pair_oracle (ode_handler pair_oracle) [] lone_body [] 0x1p-6 0.125 0x1p-20 2 false false.
(** what a long time leaves of it, with any oracle counter *)
Definition late (clk : nat) : world float :=
  mkWorld lone_body [] [] 0x1p47 0x1p-6 0.125 0x1p-20 2 false false [0; 0; 0] [] true 0 (world_M lone_body) (match ref_inv (world_M lone_body) with Ok m => Some m | Err _ => None end) clk.
Lemma lone_late : (do w0 <- lone; exec 1 pair_oracle (ode_handler pair_oracle) ref_engine [OStepDt 0x1p47] w0) = Ok (late 2).
Proof. vm_compute. reflexivity. Qed.
Lemma late_stays clk fuel : step (S fuel) pair_oracle (ode_handler pair_oracle) ref_engine false (late clk) = Ok (late (S clk)).
Proof. vm_compute. reflexivity. Qed.
Lemma late_runs n fuel : forall clk, run_world n (S fuel) pair_oracle (ode_handler pair_oracle) ref_engine 0x1p48 (late clk) = Err EFuel.
Proof.
  induction n as [|n IH]; intros clk; [reflexivity|]. cbn [run_world]. replace (nltb (w_t (late clk)) 0x1p48) with true by (vm_compute; reflexivity). rewrite late_stays. apply IH.
Qed.
