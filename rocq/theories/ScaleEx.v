(** Worlds for the non-vacuity and refutation of C77 *)
From Coq Require Import List Arith ZArith Bool Reals Lra Lia Floats.
From Verif Require Import Num Tensor Utils Bodies Forces Constraints Contacts World Lapack LapackRef Pdipm Lcp Engines Spec GeoSpec BodySpec JointSpec EngineSpec WellSpec ScaleSpec
     RBase ResFacts LinAlg WorldFacts EngineFacts FloatEx RealEx ContactEx EngineEx.
Import ListNotations.
Open Scope R_scope.

Lemma until_step fuel o hd e w dt w' : w_contacts w = [] -> w_post_stab w = false -> step_dt fuel o hd e w dt = Ok w' -> step_dt fuel o hd (until_contact e) w dt = Ok w'.
Proof.
  intros Hc Hp H. unfold step_dt in *. cbn [e_solve until_contact]. rewrite Hc. bind_inv H as sol Es. rewrite Es. cbn [bind]. destruct sol as [v c0].
  bind_inv H as w1 E1. rewrite E1. cbn [bind]. bind_inv H as r Er. rewrite Er. cbn [bind]. destruct r as [w2 dt'].
  assert (Hp2 : w_post_stab w2 = false).
  { pose proof (set_v_cfg _ _ _ E1) as K1. destruct (step_loop_tries _ _ _ _ _ _ _ _ _ Er) as (n & _ & Hn). destruct (tries_cfg _ _ _ _ _ _ _ _ _ Hn) as [K2 _]. change (cfg (with_cache w c0)) with (cfg w) in K1. assert (K : cfg w2 = cfg w) by (transitivity (cfg w1); assumption). cfg_fields K. congruence. }
  rewrite Hp2 in *. exact H.
Qed.
Lemma slide_response : response slide_world (1/2) [- (3/2); - (1/2); 37/4; - (3/2); 1/2; 3/4] [(3/2, - (3/4))].
Proof.
  exists (vzeros 6), []. split; [apply two_forces|]. split; [reflexivity|]. split; [|split].
  + split; [reflexivity|]. split; [reflexivity|]. intros x Lx. do 6 (destruct x as [|? x]; [discriminate|]). destruct x; [|discriminate].
    unfold kinetic, constraint_velocity, contact_power, component, relative_velocity, point_velocity, v3_at, vget, dot. cbn. rnum. field.
  + reflexivity.
  + apply Forall2_cons; [|apply Forall2_nil]. assert (A : Rabs (- (3/4)) = 3/4) by (rewrite Rabs_Ropp; apply Rabs_pos_eq; lra).
    constructor; unfold mixed, normal_velocity, slip_velocity, component, relative_velocity, point_velocity, v3_at, vget; cbn; rnum; try lra.
    match goal with |- context[Rabs ?x] => replace x with (11/2) by field; rewrite (Rabs_pos_eq (11/2)) by lra end. lra.
Qed.

(** two discs of mass [m], restitution 1/2, no friction: the left one runs into the right one with
    velocity 1.  Their horizontal velocities after one step *)
Definition bounce (m : float) : res (float * float) := (
  do a <- circle_init 0 [0; 0] 1 [0; 1; 0] m 0.5 0 0.125;
  do b <- circle_init 1 [2; 0] 1 [0; 0; 0] m 0.5 0 0.125;
  do w <- world_init pair_oracle (diff_handler 10 pair_oracle) [] [a; b] [] 0.5 0.125 0x1p-10 2 false false;
  do u <- exec 20 pair_oracle (diff_handler 10 pair_oracle) ref_engine [OStep false] w;
  do a' <- get_body (w_bodies u) 0;
  do b' <- get_body (w_bodies u) 1;
  Ok (fst (snd (b_v a')), fst (snd (b_v b'))))%float.
