(** Steps that do not return go on for ever: they raise no exception *)
From Coq Require Import List Arith ZArith Lia Bool Reals Lra.
From Verif Require Import Num Tensor Utils Bodies Forces Constraints Contacts World Lapack Pdipm Lcp Engines Breakout Game
     Spec GeoSpec BodySpec JointSpec FreshSpec ContactSpec LapackSpec EngineSpec StrictSpec
     ResFacts RBase BodyFacts WorldFacts TimeFacts HandlerFacts RunTotal StrictFacts.
Import ListNotations.
Open Scope R_scope.

Definition keeps (P : world R -> Prop) (r : res (world R)) : Prop := match r with Ok w => P w | Err x => x = EFuel end.
Lemma keeps_bind (P Q : world R -> Prop) r (k : world R -> res (world R)) : keeps P r -> (forall w, P w -> keeps Q (k w)) -> keeps Q (bind r k).
Proof. destruct r as [w|x]; cbn; auto. Qed.
Section On.
Variables (P : world R -> Prop) (o : oracle R) (hd : handler R) (e : engine R).
Hypothesis Hr : returns_on P o hd e.
Lemma loop_keeps w0 fuel : P w0 -> forall w dt, P w -> length (w_joints w0) = length (w_joints w) ->
  match step_loop fuel o hd w (cat3 (map b_p (w_bodies w0))) (map (fun '(j, _, _) => (j_rot1 j, j_rot2 j)) (w_joints w0)) dt with Ok r => P (fst r) | Err x => x = EFuel end.
Proof.
  intros H0. induction fuel as [|fuel IH]; intros w dt Hw Hl; cbn [step_loop]; [reflexivity|].
  destruct (ro_joints _ _ _ _ Hr w Hw) as [Hj _]. destruct (move_all_total w dt Hj) as (w1 & E1 & J1 & L1 & K1). rewrite E1. cbn [bind].
  pose proof (ro_move _ _ _ _ Hr _ _ _ Hw E1) as P1. destruct (ro_find _ _ _ _ Hr w1 P1) as (w2 & E2 & P2). rewrite E2. cbn [bind].
  destruct (no_penetration w2); [exact P2|]. destruct (_ && _)%bool; [exact P2|].
  destruct (ro_joints _ _ _ _ Hr w2 P2) as [J2 _]. pose proof (find_contacts_inv _ _ _ _ E2) as (bs & cs & clk & E2').
  assert (K2 : length (w_joints w2) = length (w_joints w)) by (rewrite E2'; cbn; auto).
  destruct (rewind_total w2 (cat3 (map b_p (w_bodies w0))) (map (fun '(j, _, _) => (j_rot1 j, j_rot2 j)) (w_joints w0)) J2) as (w3 & E3 & J3 & L3 & K3); [rewrite map_length; congruence|].
  rewrite E3. cbn [bind]. apply IH; [exact (ro_rewind _ _ _ _ Hr _ _ _ H0 P2 E3)|congruence].
Qed.
Lemma step_dt_keeps fuel w dt : P w -> keeps P (step_dt fuel o hd e w dt).
Proof.
  intros Hw. unfold step_dt. destruct (ro_solve _ _ _ _ Hr w dt Hw) as (v & c & Ev & Lv). rewrite Ev. cbn [bind].
  destruct (set_v_total (with_cache w c) v Lv) as [w1 E1]. rewrite E1. cbn [bind].
  pose proof (ro_set_v _ _ _ _ Hr _ _ _ (ro_cache _ _ _ _ Hr _ _ _ _ Hw Ev) E1) as P1.
  destruct (set_v_shape _ _ _ E1) as (_ & _ & S3). change (w_joints (with_cache w c)) with (w_joints w) in S3.
  pose proof (loop_keeps w fuel Hw w1 dt P1 ltac:(congruence)) as Q. destruct (step_loop _ _ _ _ _ _ _) as [[w2 dt']|x]; cbn [bind]; [|exact Q]. cbn [fst] in Q. rename Q into P2.
  destruct (w_post_stab w2) eqn:Hp; cbn [bind keeps]; [|now apply (ro_t _ _ _ _ Hr)].
  destruct (ro_post _ _ _ _ Hr w2 P2 Hp) as (dp & Ed & Ld). rewrite Ed. cbn [bind].
  destruct (set_v_total w2 (map (fun a => ndiv a (nofZ 2)) dp)) as [wa Ea]; [now rewrite map_length|]. rewrite Ea. cbn [bind]. pose proof (ro_set_v _ _ _ _ Hr _ _ _ P2 Ea) as Pa.
  destruct (ro_joints _ _ _ _ Hr wa Pa) as [Ja _]. destruct (move_all_total wa dt' Ja) as (wb & Eb & _ & Lb & _). rewrite Eb. cbn [bind]. pose proof (ro_move _ _ _ _ Hr _ _ _ Pa Eb) as Pb.
  destruct (ro_joints _ _ _ _ Hr w2 P2) as [_ V2]. destruct (set_v_total wb (w_v w2)) as [wc Ec]. { rewrite V2, Lb. destruct (set_v_shape _ _ _ Ea) as (-> & _). reflexivity. }
  rewrite Ec. cbn [bind]. pose proof (ro_set_v _ _ _ _ Hr _ _ _ Pb Ec) as Pc. destruct (ro_find _ _ _ _ Hr wc Pc) as (wd & Ed' & Pd). rewrite Ed'. cbn [bind keeps]. now apply (ro_t _ _ _ _ Hr).
Qed.
Lemma fixed_keeps fuel lfuel end_t : forall w, P w -> keeps P (fixed_loop fuel lfuel o hd e end_t w).
Proof.
  induction fuel as [|fuel IH]; intros w Hw; cbn [fixed_loop]; [reflexivity|]. destruct (nltb _ _); [|exact Hw].
  eapply keeps_bind; [now apply step_dt_keeps|exact IH].
Qed.
Lemma step_keeps fuel fixed w : P w -> keeps P (step fuel o hd e fixed w).
Proof. intros Hw. unfold step. destruct fixed; [now apply fixed_keeps|now apply step_dt_keeps]. Qed.
Lemma steps_keep fuel fixed : forall w, P w -> keeps P (exec fuel o hd e (map OStep fixed) w).
Proof. induction fixed as [|f l IH]; intros w Hw; cbn [map exec]; [exact Hw|]. eapply keeps_bind; [now apply step_keeps|exact IH]. Qed.
Lemma run_keeps fuel lfuel run_time : forall w, P w -> keeps P (run_world fuel lfuel o hd e run_time w).
Proof.
  induction fuel as [|fuel IH]; intros w Hw; cbn [run_world]; [reflexivity|]. destruct (nltb _ _); [|exact Hw]. eapply keeps_bind; [now apply step_keeps|exact IH].
Qed.
Lemma set_keeps w v : P w -> length v = length (w_v w) -> keeps P (set_v w v).
Proof.
  intros Hw Hl. destruct (ro_joints _ _ _ _ Hr w Hw) as [_ V]. destruct (set_v_total w v) as [w1 E]; [congruence|]. rewrite E. cbn. exact (ro_set_v _ _ _ _ Hr _ _ _ Hw E).
Qed.
Lemma breakout_keeps fuel w i a vx vy : P w -> keeps P (step_breakout fuel o hd e w i a vx vy).
Proof. intros Hw. unfold step_breakout. eapply keeps_bind; [apply set_keeps; [exact Hw|now rewrite !upd_length]|]. intros w1 H1. now apply step_keeps. Qed.
Lemma game_loop_keeps fuel lfuel rt v i : forall actions w, P w -> keeps P (game_loop fuel lfuel o hd e rt v i actions w).
Proof.
  induction fuel as [|fuel IH]; intros actions w Hw; cbn [game_loop]; [reflexivity|]. destruct (nltb _ _); [|exact Hw].
  eapply keeps_bind; [apply set_keeps; [exact Hw|now rewrite upd_length]|]. intros w1 H1. eapply keeps_bind; [now apply step_keeps|]. intros w2 H2. now apply IH.
Qed.
End On.

Section Smooth.
Variables (la : lapack R) (mi gf : nat) (o : oracle R) (bs : list (body R)) (js : list (joint R)) (w0 : world R).
Hypothesis HL : lapack_ok la.
Hypothesis Hmi : (0 < mi)%nat.
Hypothesis Ho : broadphase_sane o.
Hypothesis HS : smooth_strict gf bs js w0.
Variables (heap : fheap R) (dt eps tol : R) (fd : nat) (ps : bool).
Notation hd := (diff_handler gf o).
Notation eng := (pdipm_engine la mi).
Hypothesis H0 : world_init o hd heap bs js dt eps tol fd ps true = Ok w0.
Lemma strict_returns : returns_on (calm la gf bs js (w_joints w0)) o hd eng.
Proof. destruct HS as [A1 A2 A3 A4 A5 A6 A7 A8 A9]. exact (calm_returns la mi gf o bs js (w_joints w0) HL Hmi Ho A5 A6 A7). Qed.
Lemma strict_calm_exec fuel ops w : exec fuel o hd eng ops w0 = Ok w -> calm la gf bs js (w_joints w0) w.
Proof.
  intros Hx. destruct HS as [A1 A2 A3 A4 A5 A6 A7 A8 A9].
  exact (calm_exec la mi gf o bs js (w_joints w0) Ho fuel ops w0 w (strict_calm la gf o bs js w0 Ho HS heap dt eps tol fd ps H0) Hx).
Qed.
Lemma strict_no_raise fuel ops w fuel' fixed x : exec fuel o hd eng ops w0 = Ok w -> exec fuel' o hd eng (map OStep fixed) w = Err x -> x = EFuel.
Proof. intros Hx E. pose proof (steps_keep _ _ _ _ strict_returns fuel' fixed w (strict_calm_exec _ _ _ Hx)) as K. rewrite E in K. exact K. Qed.
Lemma strict_run_no_raise fuel ops w n lfuel rt x : exec fuel o hd eng ops w0 = Ok w -> run_world n lfuel o hd eng rt w = Err x -> x = EFuel.
Proof. intros Hx E. pose proof (run_keeps _ _ _ _ strict_returns n lfuel rt w (strict_calm_exec _ _ _ Hx)) as K. rewrite E in K. exact K. Qed.
End Smooth.
