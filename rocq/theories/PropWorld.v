(** C09, C10: velocity layout and contact exclusions *)
From Coq Require Import List Arith ZArith Lia Bool Reals Floats.
From Verif Require Import Num Tensor Bodies Forces Constraints Contacts World Lapack LapackRef Engines
     Spec WorldFacts HandlerFacts LayoutFacts FloatEx.
Import ListNotations.
Open Scope nat_scope.

(** The two callbacks of the package change nothing on the bodies but last_sat_idx. *)
Theorem package_handlers_frame :
  forall (T : Type) (N : Num T) fuel (o : oracle T),
    handler_frame (diff_handler fuel o) /\ handler_frame (ode_handler o).
Proof. intros. split; [apply diff_handler_frame | apply ode_handler_frame]. Qed.
Print Assumptions package_handlers_frame.

(** C09.  In every reachable world get_v() is the concatenation of the bodies' velocities. *)
Theorem C09_velocity_layout :
  forall (T : Type) (N : Num T) fuel (o : oracle T) (hd : handler T) (e : engine T)
         heap bodies constraints dt eps tol fric_dirs ps st ops w0 w,
    handler_frame hd ->
    world_init o hd heap bodies constraints dt eps tol fric_dirs ps st = Ok w0 ->
    exec fuel o hd e ops w0 = Ok w ->
    length (w_v w) = 3 * length (w_bodies w) /\
    (forall i b, nth_error (w_bodies w) i = Some b ->
       b_v b = (nth (3 * i) (w_v w) n0, (nth (3 * i + 1) (w_v w) n0, nth (3 * i + 2) (w_v w) n0))) /\
    set_v w (w_v w) = Ok w.
Proof.
  intros T N fuel o hd e heap bodies cons dt eps tol fd ps st ops w0 w Hf H0 Hx.
  assert (Ha : aligned w) by (eapply aligned_exec; eauto; eapply world_init_aligned; eauto).
  split; [|split].
  - rewrite Ha, cat3_length, map_length. reflexivity.
  - intros i b Hi. exact (aligned_reads w i b Ha Hi).
  - now apply set_v_noop.
Qed.
Print Assumptions C09_velocity_layout.

(** set_v(v) gives body i the slice i of v, changes nothing else on it, and get_v() returns v. *)
Theorem C09_set_v :
  forall (T : Type) (N : Num T) (w : world T) v w',
    set_v w v = Ok w' ->
    w_v w' = v /\ length (w_bodies w') = length (w_bodies w) /\ w_contacts w' = w_contacts w /\
    w_t w' = w_t w /\ w_joints w' = w_joints w /\
    forall i b, nth_error (w_bodies w) i = Some b ->
      nth_error (w_bodies w') i =
      Some (with_v b (nth (3 * i) v n0, (nth (3 * i + 1) v n0, nth (3 * i + 2) v n0))).
Proof. exact @set_v_spec. Qed.
Print Assumptions C09_set_v.

(** set_p puts body i at slice i (body.set_p: Circle, Hull and Rect as dispatched). *)
Theorem C09_set_p :
  forall (T : Type) (N : Num T) (w : world T) p,
    length (w_bodies (world_set_p w p)) = length (w_bodies w) /\
    forall i b, nth_error (w_bodies w) i = Some b ->
      exists b', nth_error (w_bodies (world_set_p w p)) i = Some b' /\
        b' = set_p b (nth (3 * i) p n0, (nth (3 * i + 1) p n0, nth (3 * i + 2) p n0)) /\
        b_p b' = (nth (3 * i) p n0, (nth (3 * i + 1) p n0, nth (3 * i + 2) p n0)) /\
        b_v b' = b_v b.
Proof. exact @world_set_p_spec. Qed.
Print Assumptions C09_set_p.

(** apply_forces(t) concatenates the bodies' total forces in body order. *)
Theorem C09_apply_forces :
  forall (T : Type) (N : Num T) (w : world T) t fs,
    world_apply_forces w t = Ok fs ->
    length fs = 3 * length (w_bodies w) /\
    forall i b, nth_error (w_bodies w) i = Some b ->
      body_apply_forces (w_heap w) b t =
      Ok (nth (3 * i) fs n0, (nth (3 * i + 1) fs n0, nth (3 * i + 2) fs n0)).
Proof. exact @apply_forces_layout. Qed.
Print Assumptions C09_apply_forces.

Open Scope float_scope.
Definition C09_world : res (world float) :=
  do b1 <- circle_init 0 [0; 0] 1 [0.25; 8; 0] 1 0.5 0.5 0.125;
  do b2 <- rect_init 1 [0.125; 4; 0] (2, 2) [0; 0; 0.5] 1 0.5 0.5 0.125;
  do b3 <- hull_init 2 (7, 0) [(-1, -1); (1, -1); (1, 1); (0, 2); (-1, 1)] [0; 0; 0] 1 0.5 0.5 0.125;
  world_init pair_oracle (diff_handler 20 pair_oracle) [] [b1; b2; b3] [] 1 0.125 0x1p-20 2 true true.
Example C09_case :
  exists w, (do w0 <- C09_world;
             exec 20 pair_oracle (diff_handler 20 pair_oracle) ref_engine
                  [OStep false; OSetV [0.5; 1; 2; 0; 0; 0; 0; 0; 1]; OStep false] w0) = Ok w /\
            Nat.eqb (length (w_bodies w)) 3 = true.
Proof. apply res_check_ok. vm_compute. reflexivity. Qed.
Close Scope float_scope.

(** C10.  add_no_contact is symmetric, and no contact of an excluded pair is ever recorded, in
    either order of the pair. *)
Theorem C10_symmetric :
  forall (T : Type) (N : Num T) (bodies : list (body T)) calls i j bi bj,
    i < length bodies -> j < length bodies -> i <> j -> In (i, j) calls ->
    nth_error (no_contact_ops bodies calls) i = Some bi ->
    nth_error (no_contact_ops bodies calls) j = Some bj ->
    In (b_id bi) (g_no_contact (b_geom bj)) /\ In (b_id bj) (g_no_contact (b_geom bi)).
Proof. intros. eapply nc_ops_excluded; eauto. Qed.
Print Assumptions C10_symmetric.

Theorem C10_respected :
  forall (T : Type) (N : Num T) fuel (o : oracle T) (hd : handler T) (e : engine T)
         heap bodies calls constraints dt eps tol fric_dirs ps st ops w0 w i j c,
    hd = diff_handler fuel o \/ hd = ode_handler o ->
    world_init o hd heap (no_contact_ops bodies calls) constraints dt eps tol fric_dirs ps st = Ok w0 ->
    exec fuel o hd e ops w0 = Ok w ->
    In (i, j) calls -> i <> j -> In c (w_contacts w) ->
    ~ (c_i1 c = i /\ c_i2 c = j) /\ ~ (c_i1 c = j /\ c_i2 c = i).
Proof.
  intros T N fuel o hd e heap bodies calls cons dt eps tol fd ps st ops w0 w i j c Hh.
  apply no_contact_respected; destruct Hh; subst hd;
    auto using diff_handler_frame, ode_handler_frame, diff_handler_respects, ode_handler_respects.
Qed.
Print Assumptions C10_respected.

(** nothing else is excluded: the sets hold exactly the bodies named in some call *)
Theorem C10_exact :
  forall (T : Type) (N : Num T) (bodies : list (body T)) calls i j bi bj,
    NoDup (map b_id bodies) ->
    Forall (fun b => g_no_contact (b_geom b) = []) bodies ->
    Forall (fun '(a, b) => a <> b /\ a < length bodies /\ b < length bodies) calls ->
    nth_error (no_contact_ops bodies calls) i = Some bi ->
    nth_error (no_contact_ops bodies calls) j = Some bj ->
    (In (b_id bi) (g_no_contact (b_geom bj)) <-> In (i, j) calls \/ In (j, i) calls).
Proof. intros T N. exact nc_ops_exact. Qed.
Print Assumptions C10_exact.

(** every recorded contact names two different bodies of the world *)
Theorem C10_contact_bodies :
  forall (T : Type) (N : Num T) fuel (o : oracle T) (hd : handler T) (e : engine T)
         heap bodies constraints dt eps tol fric_dirs ps st ops w0 w,
    hd = diff_handler fuel o \/ hd = ode_handler o -> broadphase_sane o ->
    world_init o hd heap bodies constraints dt eps tol fric_dirs ps st = Ok w0 ->
    exec fuel o hd e ops w0 = Ok w ->
    Forall (fun c => c_i1 c <> c_i2 c /\ c_i1 c < length bodies /\ c_i2 c < length bodies)
           (w_contacts w).
Proof.
  intros T N fuel o hd e heap bodies cons dt eps tol fd ps st ops w0 w Hh.
  apply contacts_name_bodies; destruct Hh; subst hd;
    auto using diff_handler_frame, ode_handler_frame, diff_handler_respects, ode_handler_respects.
Qed.
Print Assumptions C10_contact_bodies.

(** three overlapping circles, bodies 0 and 1 excluded: the contacts (0,2), (1,2) are there *)
Open Scope float_scope.
Example C10_case :
  exists w, (do b1 <- circle_init 0 [0; 0] 1 [0; 0; 0] 1 0.5 0.5 0.125;
             do b2 <- circle_init 1 [1; 0] 1 [0; 0; 0] 1 0.5 0.5 0.125;
             do b3 <- circle_init 2 [0.5; 2] 1 [0; 0; 0] 1 0.5 0.5 0.125;
             do w0 <- world_init pair_oracle (diff_handler 10 pair_oracle) []
                                 (no_contact_ops [b1; b2; b3] [(1, 0)]%nat) [] 1 0.125 0.25 2 false true;
             exec 20 pair_oracle (diff_handler 10 pair_oracle) ref_engine [OStep false] w0) = Ok w /\
            Nat.eqb (length (w_contacts w)) 2 = true.
Proof. apply res_check_ok. vm_compute. reflexivity. Qed.
