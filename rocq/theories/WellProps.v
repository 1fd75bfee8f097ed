(** The contact response in worlds built by the API: assembling WellFacts, WellSolve and EngineProps *)
From Coq Require Import List Arith ZArith Lia Bool Reals Lra.
From Verif Require Import Num Tensor Utils Bodies Forces Constraints Contacts World Lapack LapackRef Pdipm Lcp Engines
     Spec GeoSpec BodySpec JointSpec FreshSpec EngineSpec WellSpec ContactSpec ResFacts RBase LinAlg LapackSpec PdipmSpec EngineFacts ContactSys EngineBalance EnergyFacts EngineProps EngineMore WellFacts WellSolve.
Import ListNotations.
Open Scope R_scope.

Lemma solutions la mi bs js w dt v imps : engine_world la mi bs js w -> w_fric_dirs w = 2%nat -> w_contacts w <> [] ->
  (response w dt v imps <-> exists it, solves_engine w dt it /\ vopp (i_x it) = v /\ impulses (length (w_contacts w)) (i_z it) = imps).
Proof.
  intros HW H2 Hc. destruct (engine_world_sound _ _ _ _ _ HW) as (J0 & HS & _). split.
  - apply (response_solves bs js J0 w HS dt v imps H2 Hc).
  - intros (it & Hs & <- & <-). destruct (exact_response la mi bs js w dt HW Hc it Hs) as (f & Ef & Lf & Lv & _ & B & C & L).
    exists f, (i_y it). repeat (split; [assumption|]). apply (impulses_coulomb w). exact L.
Qed.
Lemma unique la mi bs js w dt v imps v' imps' : engine_world la mi bs js w -> massive w -> frictionless w -> response w dt v imps -> response w dt v' imps' -> v = v'.
Proof. intros HW. destruct (engine_world_sound _ _ _ _ _ HW) as (J0 & HS & _). apply (response_unique bs js J0 w HS). Qed.
Lemma existence la mi bs js w dt f : engine_world la mi bs js w -> massive w -> frictionless w -> world_apply_forces w (w_t w) = Ok f ->
  ((exists v imps, response w dt v imps) <-> exists v, allowed w v).
Proof.
  intros HW Hm Hf Ef. destruct (engine_world_sound _ _ _ _ _ HW) as (J0 & HS & _). split.
  - intros (v & imps & H). exists v. exact (response_allowed w dt v imps H).
  - intros (v & H). exact (response_exists bs js J0 w HS dt f v Hm Hf Ef H).
Qed.
Lemma uniform la mi bs js w dt f e : engine_world la mi bs js w -> massive w -> frictionless w -> world_apply_forces w (w_t w) = Ok f ->
  (forall c, In c (w_contacts w) -> mixed w b_rest c = e) -> constraint_velocity w (w_v w) = vzeros (w_num_constraints w) ->
  exists v imps, response w dt v imps /\ forall v' imps', response w dt v' imps' -> v' = v.
Proof.
  intros HW Hm Hf Ef He HC. destruct (engine_world_sound _ _ _ _ _ HW) as (J0 & HS & _).
  destruct (response_exists bs js J0 w HS dt f _ Hm Hf Ef (uniform_allowed bs js J0 w HS e He HC)) as (v & imps & H). exists v, imps. split; [exact H|].
  intros v' imps' H'. exact (response_unique bs js J0 w HS dt v' imps' v imps Hm Hf H' H).
Qed.
Lemma returned_near la mi bs js w dt v c : lapack_ok la -> engine_world la mi bs js w -> massive w -> frictionless w -> w_contacts w <> [] -> solve_dynamics la mi w dt = Ok (v, c) ->
  exists it r, engine_point la mi w dt it r /\ v = vopp (i_x it) /\
    forall v' imps', response w dt v' imps' ->
      kinetic w (vsub v v') (vsub v v') <= r * (slack (length (w_contacts w)) (i_z it) + Rsum (map fst imps') + slip_total w (vsub v v') + norm2 (vsub v v')).
Proof.
  intros HL HW Hm Hf Hc H. destruct (engine_world_sound _ _ _ _ _ HW) as (J0 & HS & _).
  destruct (solved_point la mi bs js w dt HL HW Hc v c H) as (it & r & Hp & Ev). exists it, r. split; [exact Hp|]. split; [exact Ev|]. intros v' imps' HR.
  destruct (point_response la mi bs js w dt HL HW Hc it r v Hp Ev) as (f & err & Ef & Lf & Lv & Pz & Le & Ne & B & C & L).
  exact (response_near bs js J0 w HS dt v (i_z it) f (i_y it) err r v' imps' Hm Hf Ef Lv Le Ne ltac:(eapply Forall_impl; [|exact Pz]; cbn; intros; lra) B C L HR).
Qed.
Lemma no_contacts la mi bs js w dt v c : lapack_ok la -> engine_world la mi bs js w -> w_contacts w = [] -> solve_dynamics la mi w dt = Ok (v, c) -> response w dt v [].
Proof.
  intros HL HW Hc H. destruct (engine_newton la mi bs js w dt v c HL HW H) as (f & imps & y & Ef & Lv & B & C). pose proof (proj1 B) as Li. rewrite Hc in Li. destruct imps; [|discriminate].
  exists f, y. repeat (split; [assumption|]). rewrite Hc. constructor.
Qed.
