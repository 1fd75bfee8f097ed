(** The loop bounds of the model do not influence its results: a history that ends within a bound
    ends the same way within any larger one. *)
From Coq Require Import List Arith Lia Bool.
From Verif Require Import Num Tensor Utils Bodies Forces Constraints Contacts World ResFacts Spec.
Import ListNotations.
Open Scope nat_scope.

Section Fuel.
Context {T : Type} {N : Num T}.
Variables (o : oracle T) (hd : handler T) (e : engine T).
Lemma step_loop_fuel n m sp sr : n <= m -> forall w dt r, step_loop n o hd w sp sr dt = Ok r -> step_loop m o hd w sp sr dt = Ok r.
Proof.
  revert m. induction n as [|n IH]; intros m Hm w dt r H; [discriminate|]. destruct m as [|m]; [lia|]. cbn [step_loop] in *. bind_inv H as w1 E1. rewrite E1. cbn [bind].
  bind_inv H as w2 E2. rewrite E2. cbn [bind]. destruct (no_penetration w2); [exact H|]. destruct (_ && _); [exact H|]. bind_inv H as w3 E3. rewrite E3. cbn [bind]. apply IH; [lia|exact H].
Qed.
Lemma step_dt_fuel n m w dt w' : n <= m -> step_dt n o hd e w dt = Ok w' -> step_dt m o hd e w dt = Ok w'.
Proof.
  intros Hm H. unfold step_dt in *. cbv zeta in *. bind_inv H as sol Es. rewrite Es. destruct sol as [v c]. cbn [bind]. bind_inv H as w1 E1. rewrite E1. cbn [bind]. bind_inv H as r Er.
  rewrite (step_loop_fuel n m _ _ Hm _ _ _ Er). cbn [bind]. exact H.
Qed.
Lemma fixed_loop_fuel n m ln lm et : n <= m -> ln <= lm -> forall w w', fixed_loop n ln o hd e et w = Ok w' -> fixed_loop m lm o hd e et w = Ok w'.
Proof.
  intros Hm Hl. revert m Hm. induction n as [|n IH]; intros m Hm w w' H; [discriminate|]. destruct m as [|m]; [lia|]. cbn [fixed_loop] in *. destruct (nltb _ _); [|exact H].
  bind_inv H as w1 E1. rewrite (step_dt_fuel ln lm _ _ _ Hl E1). cbn [bind]. apply IH; [lia|exact H].
Qed.
Lemma step_fuel n m fx w w' : n <= m -> step n o hd e fx w = Ok w' -> step m o hd e fx w = Ok w'.
Proof. intros Hm. unfold step. destruct fx; [now apply fixed_loop_fuel|now apply step_dt_fuel]. Qed.
Lemma exec_fuel n m : n <= m -> forall ops w w', exec n o hd e ops w = Ok w' -> exec m o hd e ops w = Ok w'.
Proof.
  intros Hm. induction ops as [|[fx|dt|v] ops IH]; intros w w' H; cbn [exec] in *; [exact H| | |].
  - bind_inv H as w1 E1. rewrite (step_fuel n m _ _ _ Hm E1). cbn [bind]. now apply IH.
  - bind_inv H as w1 E1. rewrite (step_dt_fuel n m _ _ _ Hm E1). cbn [bind]. now apply IH.
  - bind_inv H as w1 E1. rewrite E1. cbn [bind]. now apply IH.
Qed.
Lemma exec_app n a : forall b w w' w'', exec n o hd e a w = Ok w' -> exec n o hd e b w' = Ok w'' -> exec n o hd e (a ++ b) w = Ok w''.
Proof.
  induction a as [|[fx|dt|v] a IH]; intros b w w' w'' Ha Hb; cbn [exec app] in *.
  - injection Ha as ->. exact Hb.
  - bind_inv Ha as w1 E1. rewrite E1. cbn [bind]. eauto.
  - bind_inv Ha as w1 E1. rewrite E1. cbn [bind]. eauto.
  - bind_inv Ha as w1 E1. rewrite E1. cbn [bind]. eauto.
Qed.
Lemma run_world_fuel n m ln lm rt : n <= m -> ln <= lm -> forall w w', run_world n ln o hd e rt w = Ok w' -> run_world m lm o hd e rt w = Ok w'.
Proof.
  intros Hm Hl. revert m Hm. induction n as [|n IH]; intros m Hm w w' H; [discriminate|]. destruct m as [|m]; [lia|]. cbn [run_world] in *.
  destruct (nltb _ _); [|exact H]. bind_inv H as w1 E1. rewrite (step_fuel ln lm _ _ _ Hl E1). cbn [bind]. apply IH; [lia|exact H].
Qed.
End Fuel.
