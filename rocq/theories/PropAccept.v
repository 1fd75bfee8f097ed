(** Which scenes World's constructor accepts, and how deep the contacts of plain bodies are *)
From Coq Require Import List Arith ZArith Bool Reals Lra Lia Floats.
From Verif Require Import Num Tensor Utils Bodies Forces Constraints Contacts World Lapack LapackRef Pdipm Lcp Engines
     Spec GeoSpec BodySpec JointSpec EngineSpec ContactSpec RewindSpec StrictSpec AcceptSpec ResFacts RBase FloatEx RealEx ContactEx StrictFacts PropContact AcceptFacts AcceptEx.
Import ListNotations.
Open Scope R_scope.

(** C96.  Relied on: World(bodies, constraints, strict_no_penetration=True) is refused with an
    AssertionError exactly when two bodies of the scene overlap by more than the tolerance.  Finding: with
    hulls of the general kind it refuses scenes without any overlap.  The first triangle is above the line
    y = -2^-40 and the second below the line y = -2^-6; without the flag the world is built and has a
    contact with a penetration over 3/4 (the tolerance is 2^-20), and with it the constructor raises. *)
Theorem C96_refuted :
  (exists w, wedge false = Ok w /\
    (match w_bodies w with
     | [h1; h2] => forallb (fun v => -0x1p-40 <? snd (b_pos h1) + snd v) (b_verts h1) && forallb (fun v => snd (b_pos h2) + snd v <? -0x1p-6) (b_verts h2)
     | _ => false
     end%float &&
     match w_contacts w with [c] => (0.75 <? c_pen c)%float | _ => false end && (w_tol w =? 0x1p-20)%float)%bool = true) /\
  wedge true = Err EAssert.
Proof. split; [apply res_check_ok|]; vm_compute; reflexivity. Qed.
Print Assumptions C96_refuted.

(** What holds.  Without bodies the constructor raises IndexError; with a constraint that names a body
    outside the list it raises ValueError. *)
Theorem C96_errors :
  forall o hd heap bs js dt eps tol fd ps st,
    (bs = [] -> world_init (T := R) o hd heap bs js dt eps tol fd ps st = Err EIndex) /\
    (bs <> [] -> (exists j, In j js /\ ~ at_hand bs j) -> world_init o hd heap bs js dt eps tol fd ps st = Err EValue).
Proof. intros o hd heap bs js dt eps tol fd ps st. split; [intros ->; reflexivity|apply init_missing]. Qed.
Print Assumptions C96_errors.
Example C96_errors_case : forall j, j_b1 j = 2%nat -> exists bs, near_box (3/2) bs /\ bs <> [] /\ exists k, In k [j] /\ ~ at_hand bs k.
Proof. intros j E. destruct (near_box_ex (3/2)) as (bs & H). exists bs. split; [exact H|]. apply near_box_scene in H. split; [apply H|]. exists j. split; [cbn; auto|]. now apply H. Qed.

(** In a world that is not strict any overlap is accepted: convex hulls and circles that fit into
    detection's reach, with every constraint between bodies of the list, always give a world. *)
Theorem C96_relaxed :
  forall gf o heap bs js dt eps tol fd ps,
    broadphase_sane o -> bs <> [] ->
    (forall b, In b bs -> available b /\ tidy b /\ in_range b /\ (gjk_rounds b <= gf)%nat) -> Forall (at_hand bs) js ->
    exists w, world_init o (diff_handler gf o) heap bs js dt eps tol fd ps false = Ok w.
Proof. exact init_relaxed_tidy. Qed.
Print Assumptions C96_relaxed.
Example C96_relaxed_case : forall j x, j_b1 j = 0%nat -> j_b2 j = Some 1%nat -> exists bs, near_box x bs /\ broadphase_sane (@pair_oracle R) /\ bs <> [] /\
  (forall b, In b bs -> available b /\ tidy b /\ in_range b /\ (gjk_rounds b <= 18)%nat) /\ Forall (at_hand bs) [j].
Proof.
  intros j x E1 E2. destruct (near_box_ex x) as (bs & H). exists bs. split; [exact H|]. split; [apply pair_sane|]. apply near_box_scene in H. split; [apply H|]. split; [apply H|].
  apply Forall_cons; [|apply Forall_nil]. now apply H.
Qed.

(** The flag only adds the check: the strict world is the one built without the flag if none of that one's
    contacts is deeper than the tolerance, and an AssertionError otherwise. *)
Theorem C96_strict :
  forall o hd heap bs js dt eps tol fd ps (w : world R),
    world_init o hd heap bs js dt eps tol fd ps false = Ok w ->
    ((forall c, In c (w_contacts w) -> c_pen c <= tol) ->
       exists w', world_init o hd heap bs js dt eps tol fd ps true = Ok w' /\ w_strict w' = true /\ w_bodies w' = w_bodies w /\ w_joints w' = w_joints w /\
         w_contacts w' = w_contacts w /\ w_v w' = w_v w /\ w_t w' = w_t w) /\
    ((exists c, In c (w_contacts w) /\ tol < c_pen c) -> world_init o hd heap bs js dt eps tol fd ps true = Err EAssert).
Proof. exact init_strict_same. Qed.
Print Assumptions C96_strict.
Example C96_strict_case : forall x, exists bs w, near_box x bs /\ world_init pair_oracle (diff_handler 18 pair_oracle) [] bs [] (1/2) (1/10) (1/100) 2 false false = Ok w.
Proof.
  intros x. destruct (near_box_ex x) as (bs & H). destruct (init_relaxed_tidy 18 pair_oracle [] bs [] (1/2) (1/10) (1/100) 2 false) as (w & W); [apply pair_sane|apply (near_box_scene _ _ H)|apply (near_box_scene _ _ H)|apply Forall_nil|].
  exists bs, w. auto.
Qed.

(** The English claim for Circles and Rects (a Circle that meets a Rect has a larger radius than the
    tolerance): a strict world is built if every two bodies that may collide overlap by at most the
    tolerance, and refused with an AssertionError if some two of them overlap by more. *)
Theorem C96_exact :
  forall gf o heap bs js dt eps tol fd ps,
    broadphase_sane o -> broadphase_complete o -> bs <> [] -> Forall available bs -> Forall (plain_body gf eps) bs ->
    (forall i j b1 b2, i <> j -> nth_error bs i = Some b1 -> nth_error bs j = Some b2 -> ~ excluded b1 b2 -> plain_pair tol b1 b2) ->
    (forall b1 b2, In b1 bs -> In b2 bs -> excluded b1 b2 -> excluded b2 b1) ->
    Forall (at_hand bs) js -> 0 <= eps -> 0 <= tol ->
    ((forall i j b1 b2, i <> j -> nth_error bs i = Some b1 -> nth_error bs j = Some b2 -> ~ excluded b1 b2 -> overlap_at_most tol b1 b2) ->
       exists w, world_init o (diff_handler gf o) heap bs js dt eps tol fd ps true = Ok w) /\
    ((exists i j b1 b2, i <> j /\ nth_error bs i = Some b1 /\ nth_error bs j = Some b2 /\ ~ excluded b1 b2 /\ ~ overlap_at_most tol b1 b2) ->
       world_init o (diff_handler gf o) heap bs js dt eps tol fd ps true = Err EAssert).
Proof. exact accept_exact. Qed.
Print Assumptions C96_exact.
Example C96_exact_case : forall x j, j_b1 j = 0%nat -> j_b2 j = Some 1%nat -> exists bs,
  near_box x bs /\ broadphase_sane (@pair_oracle R) /\ broadphase_complete (@pair_oracle R) /\ bs <> [] /\ Forall available bs /\ Forall (plain_body 18 (1/10)) bs /\
  (forall i j b1 b2, i <> j -> nth_error bs i = Some b1 -> nth_error bs j = Some b2 -> ~ excluded b1 b2 -> plain_pair (1/100) b1 b2) /\
  (forall b1 b2, In b1 bs -> In b2 bs -> excluded b1 b2 -> excluded b2 b1) /\ Forall (at_hand bs) [j] /\ 0 <= 1/10 /\ 0 <= 1/100 /\
  (x = 3/2 -> forall i j b1 b2, i <> j -> nth_error bs i = Some b1 -> nth_error bs j = Some b2 -> overlap_at_most (1/100) b1 b2) /\
  (x = 1 -> exists i j b1 b2, i <> j /\ nth_error bs i = Some b1 /\ nth_error bs j = Some b2 /\ ~ excluded b1 b2 /\ ~ overlap_at_most (1/100) b1 b2).
Proof.
  intros x j E1 E2. destruct (near_box_ex x) as (bs & H). exists bs. split; [exact H|]. split; [apply pair_sane|]. split; [apply pair_complete|].
  pose proof (near_box_scene _ _ H) as (S1 & S2 & S3 & _ & S4 & S5 & S6 & _). repeat (split; [assumption|]). split; [apply Forall_cons; [now apply S6|apply Forall_nil]|]. split; [lra|]. split; [lra|].
  split; intros ->; [intros i k b1 b2; now apply near_box_apart|now apply near_box_deep].
Qed.

(** C97.  After any history of any world, the penetrations reported between two bodies that may collide
    are their overlap: none is above t exactly when the bodies overlap by at most t.  For two Circles, two
    Rects, and a Rect with a Circle of a larger radius than t. *)
Theorem C97_depth :
  forall gf o w i j b1 b2 t,
    simulated gf o w -> broadphase_sane o -> broadphase_complete o -> i <> j ->
    nth_error (w_bodies w) i = Some b1 -> nth_error (w_bodies w) j = Some b2 -> padded w b1 b2 ->
    ~ excluded b1 b2 -> ~ excluded b2 b1 -> plain_pair t b1 b2 -> 0 <= t ->
    ((forall c, In c (w_contacts w) -> joins c i j -> c_pen c <= t) <-> overlap_at_most t b1 b2).
Proof. exact depth_exact. Qed.
Print Assumptions C97_depth.
Example C97_case : forall x, exists w b1 b2, simulated 18 pair_oracle w /\ broadphase_sane (@pair_oracle R) /\ broadphase_complete (@pair_oracle R) /\
  nth_error (w_bodies w) 0 = Some b1 /\ nth_error (w_bodies w) 1 = Some b2 /\ padded w b1 b2 /\ ~ excluded b1 b2 /\ ~ excluded b2 b1 /\ plain_pair (1/4) b1 b2 /\
  b_pos b1 = (0, 0) /\ b_pos b2 = (x, 0).
Proof. exact near_box_world. Qed.
