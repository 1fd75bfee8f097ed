(** C73: bodies that do not touch *)
From Coq Require Import List Arith ZArith Lia Bool Reals Lra Floats.
From Verif Require Import Num Tensor Utils Bodies Forces Constraints Contacts World Lapack LapackRef Pdipm Lcp Engines
     Spec GeoSpec BodySpec JointSpec FreshSpec EngineSpec WellSpec GroupSpec ContactSpec LapackSpec KktSpec PdipmSpec
     RBase ResFacts LinAlg LuFacts LayoutFacts EngineFacts EngineProps FloatEx RealEx ContactEx EngineEx WellProps GroupFacts GroupEx.
Import ListNotations.
Open Scope R_scope.

(** C73.  Relied on: bodies that do not touch and are not connected do not influence each other.
    Finding: they do.  A ball falling in gravity 10 for one step(fixed_dt=True) of 1/2 arrives with
    velocity 5; if two other balls bump into each other 100 units away during that step, it arrives at
    the same time with velocity 8.75, and lower. *)
Theorem C73_refuted :
  falling 0%float = Ok (0.5, (0, (0, 2.5)), (0, (0, 5)))%float /\
  falling 5%float = Ok (0.5, (0, (0, 3.28125)), (0, (- 0, 8.75)))%float.
Proof. split; vm_compute; reflexivity. Qed.
Print Assumptions C73_refuted.
(** The solver couples them too: the velocities of two colliding balls differ in the sixth digit when
    another pair, out of reach, collides at high speed. *)
Theorem C73_solver_refuted :
  exists a b a' b', beside 1%float = Ok (a, b) /\ beside 0x1p40%float = Ok (a', b') /\
    ((0.25 - 0x1p-30 <? fst (snd a)) && (fst (snd a') <? 0.25 - 0x1p-19))%float = true.
Proof.
  assert (E : res_check (beside 1%float) (fun p => res_check (beside 0x1p40%float) (fun p' => ((0.25 - 0x1p-30 <? fst (snd (fst p))) && (fst (snd (fst p')) <? 0.25 - 0x1p-19))%float)) = true) by (vm_compute; reflexivity).
  apply res_check_ok in E. destruct E as ([a b] & E1 & E). apply res_check_ok in E. destruct E as ([a' b'] & E2 & E). exists a, b, a', b'. auto.
Qed.
Print Assumptions C73_solver_refuted.

(** What holds, in exact arithmetic, for one step of given length: whatever the other bodies are and do,
    the response of a group to which no contact and no constraint leads from outside is the same.  (No
    friction and no massless bodies in the group; then the response is unique.) *)
Theorem C73_group :
  forall la mi bs js w la' mi' bs' js' w' S dt x imps x' imps',
    engine_world la mi bs js w -> engine_world la' mi' bs' js' w' -> same_group S w w' ->
    (forall i b, S i = true -> nth_error (w_bodies w) i = Some b -> 0 < b_mass b /\ 0 < b_inertia b) ->
    (forall c, In c (contacts_of S w) -> mixed w b_fric c = 0) ->
    response w dt x imps -> response w' dt x' imps' ->
    forall i, S i = true -> v3_at x i = v3_at x' i.
Proof. intros la mi bs js w la' mi' bs' js' w' S. intros. eapply (group_same la mi la' mi' bs js bs' js' S w w'); eauto. Qed.
Print Assumptions C73_group.
(** With friction there may be several responses; each one of the group goes with each one of the others. *)
Theorem C73_combined :
  forall la mi bs js w la' mi' bs' js' w' S dt x imps x' imps',
    engine_world la mi bs js w -> engine_world la' mi' bs' js' w' -> same_group S w w' ->
    response w dt x imps -> response w' dt x' imps' ->
    exists imps'', response w' dt (combined S (length (w_bodies w')) x x') imps''.
Proof. intros la mi bs js w la' mi' bs' js' w' S. intros. eapply (group_combined la mi la' mi' bs js bs' js' S w w'); eauto. Qed.
Print Assumptions C73_combined.
(** The velocities the engine returns obey C73_group up to the residuals [r] and [r'] of its solver. *)
Theorem C73_returned :
  forall la mi bs js w la' mi' bs' js' w' S dt it r it' r',
    lapack_ok la -> lapack_ok la' -> engine_world la mi bs js w -> engine_world la' mi' bs' js' w' -> same_group S w w' ->
    (forall c, In c (contacts_of S w) -> mixed w b_fric c = 0) -> w_contacts w <> [] -> w_contacts w' <> [] ->
    engine_point la mi w dt it r -> engine_point la' mi' w' dt it' r' ->
    let q := group_change S (length (w_bodies w)) (vopp (i_x it)) (vopp (i_x it')) in
    kinetic w q q <= (r + r') * (slack (length (w_contacts w)) (i_z it) + slack (length (w_contacts w')) (i_z it') + slip_total w q + norm2 q).
Proof. intros la mi bs js w la' mi' bs' js' w' S. intros. eapply (group_returned la mi la' mi' bs js bs' js' S w w'); eauto. Qed.
Print Assumptions C73_returned.

(** two touching discs with any velocities along their axis, and the same two beside another touching
    pair with any velocities *)
Example C73_case : forall a b c d a' b' mi,
  let w := two_disc_world a 0 (1/2) 0 b 0 (1/2) 0 in let w' := four_world a 0 (1/2) 0 b 0 (1/2) 0 c a' d b' (1/2) 0 in
  (exists bs js, engine_world ref_lapack mi bs js w) /\ (exists bs js, engine_world ref_lapack mi bs js w') /\ same_group first_two w w' /\
  (forall i b, first_two i = true -> nth_error (w_bodies w) i = Some b -> 0 < b_mass b /\ 0 < b_inertia b) /\
  (forall c, In c (contacts_of first_two w) -> mixed w b_fric c = 0) /\ contacts_of first_two w <> [] /\ w_contacts w' <> contacts_of first_two w' /\
  exists x imps x' imps', response w (1/2) x imps /\ response w' (1/2) x' imps'.
Proof.
  intros a b c d a' b' mi w w'. split; [do 2 eexists; apply two_engine_world|]. split; [do 2 eexists; apply four_engine_world|]. split; [apply four_group|].
  split; [intros [|[|i]] b0 Hi E; [injection E as <-; cbn; rnum; lra|injection E as <-; cbn; rnum; lra|discriminate]|].
  split; [intros c0 [<-|[]]; unfold mixed; cbn; lra|]. split; [discriminate|]. split; [discriminate|].
  destruct (uniform ref_lapack mi _ [] w (1/2) (vzeros 6) (1/2) (two_engine_world a 0 (1/2) 0 b 0 (1/2) 0 mi)) as (x & imps & H & _).
  { repeat (apply Forall_cons; [cbn; rnum; lra|]). apply Forall_nil. }
  { intros c0 [<-|[]]. unfold mixed. cbn. lra. }
  { apply two_forces. }
  { intros c0 [<-|[]]. unfold mixed. cbn. lra. }
  { reflexivity. }
  destruct (uniform ref_lapack mi _ [] w' (1/2) (vzeros 12) (1/2) (four_engine_world a 0 (1/2) 0 b 0 (1/2) 0 c a' d b' (1/2) 0 mi)) as (x' & imps' & H' & _).
  { repeat (apply Forall_cons; [cbn; rnum; lra|]). apply Forall_nil. }
  { intros c0 [<-|[<-|[]]]; unfold mixed; cbn; lra. }
  { apply four_forces. }
  { intros c0 [<-|[<-|[]]]; unfold mixed; cbn; lra. }
  { reflexivity. }
  exists x, imps, x', imps'. auto.
Qed.
