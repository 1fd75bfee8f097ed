(** Model of /repo/lcp_physics/physics/world.py (display code of [run_world] left out) *)
From Coq Require Import List Arith ZArith Bool.
From Verif Require Import Num Tensor Utils Bodies Forces Constraints Contacts.
Import ListNotations.

Section World.
Context {T : Type} {N : Num T}.
Local Open Scope num_scope.

(** world.py:19-71.  Bodies are referred to by their position in [w_bodies] ([geom.body],
    world.py:42).  [w_cache] is engine.cached_inverse (the engine object is created by and for
    the world, world.py:26); [w_heap] holds the force objects of all bodies; [w_clk] counts the
    calls made to outside oracles. *)
Record world := mkWorld {
  w_bodies : list (body T);
  w_joints : list (joint T * nat * option nat);
  w_heap : fheap T;
  w_t : T;
  w_dt : T;
  w_eps : T;
  w_tol : T;
  w_fric_dirs : nat;
  w_post_stab : bool;
  w_strict : bool;
  w_v : vec T;
  w_contacts : list (contact T);
  w_static_inverse : bool;
  w_num_constraints : nat;
  w_M : mat T;
  w_cache : option (mat T);
  w_clk : nat
}.

Definition with_state (w : world) (bs : list (body T)) (js : list (joint T * nat * option nat))
           (t : T) (v : vec T) (cs : list (contact T)) (cache : option (mat T)) (clk : nat)
  : world :=
  {| w_bodies := bs; w_joints := js; w_heap := w_heap w; w_t := t; w_dt := w_dt w;
     w_eps := w_eps w; w_tol := w_tol w; w_fric_dirs := w_fric_dirs w;
     w_post_stab := w_post_stab w; w_strict := w_strict w; w_v := v; w_contacts := cs;
     w_static_inverse := w_static_inverse w; w_num_constraints := w_num_constraints w;
     w_M := w_M w; w_cache := cache; w_clk := clk |}.
Definition with_bodies (w : world) bs :=
  with_state w bs (w_joints w) (w_t w) (w_v w) (w_contacts w) (w_cache w) (w_clk w).
Definition with_joints (w : world) js :=
  with_state w (w_bodies w) js (w_t w) (w_v w) (w_contacts w) (w_cache w) (w_clk w).
Definition with_t (w : world) t :=
  with_state w (w_bodies w) (w_joints w) t (w_v w) (w_contacts w) (w_cache w) (w_clk w).
Definition with_cache (w : world) c :=
  with_state w (w_bodies w) (w_joints w) (w_t w) (w_v w) (w_contacts w) c (w_clk w).

(** The engine: [solve_dynamics] returns the new velocity and the new cached_inverse. *)
Record engine := mkEngine {
  e_solve : world -> T -> res (vec T * option (mat T));
  e_post : world -> res (vec T) }.

(** *** flat vectors *)
(** x[i*3:(i+1)*3] as a pose *)
Definition v3_at (x : vec T) (i : nat) : v3 T :=
  (vget x (3 * i), (vget x (3 * i + 1), vget x (3 * i + 2))).
(** torch.cat of 3-vectors *)
Definition cat3 (l : list (v3 T)) : vec T := flat_map v3list l.

(** for i, b in enumerate(bodies): ... *)
Fixpoint mapi_from {A B} (i : nat) (f : nat -> A -> B) (l : list A) : list B :=
  match l with
  | [] => []
  | a :: l' => f i a :: mapi_from (S i) f l'
  end.
Definition mapi {A B} (f : nat -> A -> B) (l : list A) : list B := mapi_from 0 f l.

(** world.py:127-130 [set_v] (vec_len = 3).  A vector of another length than 3*len(bodies) is
    rejected here; torch would build short slices and fail at the next use. *)
Definition set_v (w : world) (new_v : vec T) : res world :=
  if Nat.eqb (length new_v) (3 * length (w_bodies w)) then
    Ok (with_state w (mapi (fun i b => with_v b (v3_at new_v i)) (w_bodies w)) (w_joints w)
                   (w_t w) new_v (w_contacts w) (w_cache w) (w_clk w))
  else Err EShape.

(** world.py:132-134 [set_p] *)
Definition world_set_p (w : world) (new_p : vec T) : world :=
  with_bodies w (mapi (fun i b => set_p b (v3_at new_p i)) (w_bodies w)).

(** world.py:136-137 [apply_forces] *)
Definition world_apply_forces (w : world) (t : T) : res (vec T) :=
  do fs <- mapM (fun b => body_apply_forces (w_heap w) b t) (w_bodies w);
  Ok (cat3 fs).

(** world.py:139-142 [find_contacts]: the space calls the callback for each candidate pair *)
Definition find_contacts (o : oracle T) (hd : handler T) (w : world) : res world :=
  let pairs := o_collide o (w_clk w) (map b_geom (w_bodies w)) in
  do st <- fold_left
             (fun acc '(i1, i2) =>
                do s <- acc;
                let '(cs, bs, clk) := s in
                do r <- hd (w_eps w) clk bs i1 i2;
                let '(new, bs', clk') := r in
                Ok (cs ++ new, bs', clk'))
             pairs (Ok ([], w_bodies w, S (w_clk w)));
  let '(cs, bs, clk) := st in
  Ok (with_state w bs (w_joints w) (w_t w) (w_v w) cs (w_cache w) clk).

(** the current states of a joint's bodies *)
Definition joint_bodies (bs : list (body T)) (i1 : nat) (i2 : option nat)
  : res (body T * option (body T)) :=
  do b1 <- get_body bs i1;
  match i2 with
  | None => Ok (b1, None)
  | Some i => do b2 <- get_body bs i; Ok (b1, Some b2)
  end.

(** world.py:90-93: every body and then every joint moves *)
Definition move_all (w : world) (dt : T) : res world :=
  let bs := map (fun b => move b dt) (w_bodies w) in
  do js <- mapM (fun '(j, i1, i2) =>
                   do jb <- joint_bodies bs i1 i2;
                   Ok (j_move j (fst jb) (snd jb) dt, i1, i2)) (w_joints w);
  Ok (with_joints (with_bodies w bs) js).

(** world.py:104-107: back to the beginning of the step *)
Definition rewind (w : world) (start_p : vec T) (start_rots : list (T * option T)) : res world :=
  let w1 := world_set_p w start_p in
  do js <- mapM (fun '((j, i1, i2), c) =>
                   do jb <- joint_bodies (w_bodies w1) i1 i2;
                   Ok (j_update_pos (j_with_rots j (fst c) (j_rot2 j)) (fst jb) (snd jb), i1, i2))
                (combine (w_joints w1) start_rots);
  Ok (with_joints w1 js).

(** world.py:95 *)
Definition no_penetration (w : world) : bool :=
  forallb (fun c => c_pen c <=? w_tol w) (w_contacts w).

(** world.py:88-107, the [while True] loop.  Returns the state and the dt of the accepted move. *)
Fixpoint step_loop (fuel : nat) (o : oracle T) (hd : handler T) (w : world)
         (start_p : vec T) (start_rots : list (T * option T)) (dt : T) : res (world * T) :=
  match fuel with
  | O => Err EFuel
  | S fuel' =>
      do w1 <- move_all w dt;
      do w2 <- find_contacts o hd w1;
      if no_penetration w2 then Ok (w2, dt)
      else if negb (w_strict w2) && (dt <? w_dt w2 / nofZ 4) then Ok (w2, dt)
      else
        do w3 <- rewind w2 start_p start_rots;
        step_loop fuel' o hd w3 start_p start_rots (dt / nofZ 2)
  end.

(** world.py:83-122 [step_dt] *)
Definition step_dt (fuel : nat) (o : oracle T) (hd : handler T) (e : engine) (w : world) (dt : T)
  : res world :=
  let start_p := cat3 (map b_p (w_bodies w)) in
  let start_rots := map (fun '(j, _, _) => (j_rot1 j, j_rot2 j)) (w_joints w) in
  do sol <- e_solve e w dt;
  let '(new_v, cache) := sol in
  do w1 <- set_v (with_cache w cache) new_v;
  do r <- step_loop fuel o hd w1 start_p start_rots dt;
  let '(w2, dt') := r in
  do w3 <- (if w_post_stab w2 then
              let tmp_v := w_v w2 in
              do dp <- e_post e w2;
              do wa <- set_v w2 (map (fun a => a / nofZ 2) dp);
              do wb <- move_all wa dt';
              do wc <- set_v wb tmp_v;
              find_contacts o hd wc
            else Ok w2);
  Ok (with_t w3 (w_t w3 + dt')).

(** world.py:76-78, the loop of [step(fixed_dt=True)] *)
Fixpoint fixed_loop (fuel : nat) (lfuel : nat) (o : oracle T) (hd : handler T) (e : engine)
         (end_t : T) (w : world) : res world :=
  match fuel with
  | O => Err EFuel
  | S fuel' =>
      if w_t w <? end_t then
        do w' <- step_dt lfuel o hd e w (end_t - w_t w);
        fixed_loop fuel' lfuel o hd e end_t w'
      else Ok w
  end.

(** world.py:72-80 [step] *)
Definition step (fuel : nat) (o : oracle T) (hd : handler T) (e : engine) (fixed_dt : bool)
           (w : world) : res world :=
  if fixed_dt then fixed_loop fuel fuel o hd e (w_t w + w_dt w) w
  else step_dt fuel o hd e w (w_dt w).

(** world.py:266-267, the loop of [run_world] without display *)
Fixpoint run_world (fuel : nat) (lfuel : nat) (o : oracle T) (hd : handler T) (e : engine)
         (run_time : T) (w : world) : res world :=
  match fuel with
  | O => Err EFuel
  | S fuel' =>
      if w_t w <? run_time then
        do w' <- step lfuel o hd e false w;
        run_world fuel' lfuel o hd e run_time w'
      else Ok w
  end.

(** *** system matrices *)
(** world.py:57-61 [self._M] *)
Definition world_M (bs : list (body T)) : mat T :=
  let n := (3 * length bs)%nat in
  fold_left (fun M ib => blk_put M (3 * fst ib) (3 * fst ib) (b_M (snd ib)))
            (combine (seq 0 (length bs)) bs) (mzeros n n).

(** world.py:156-170 [Je] *)
Definition Je (w : world) : mat T :=
  snd (fold_left
         (fun '(row, m) '(j, i1, i2) =>
            let '(J1, oJ2) := j_J j in
            let m1 := blk_put m row (3 * i1) J1 in
            let m2 := match oJ2, i2 with
                      | Some J2, Some i => blk_put m1 row (3 * i) J2
                      | _, _ => m1
                      end in
            ((row + length J1)%nat, m2))
         (w_joints w)
         (0%nat, mzeros (w_num_constraints w) (3 * length (w_bodies w)))).

(** world.py:178-181: one row of Jc for body 1 and body 2 *)
Definition jc_row (p n : v2 T) : vec T := [cross_2d p n; fst n; snd n].

(** world.py:172-184 [Jc] *)
Definition Jc (w : world) : mat T :=
  map (fun c =>
         let r := vzeros (3 * length (w_bodies w)) in
         let r1 := row_put r (3 * c_i1 c) (jc_row (c_p1 c) (c_normal c)) in
         row_put r1 (3 * c_i2 c) (vopp (jc_row (c_p2 c) (c_normal c))))
      (w_contacts w).

(** world.py:186-211 [Jf]: two rows per contact (the code writes a 2-row block into fric_dirs
    rows, so any other fric_dirs is a shape error) *)
Definition jf_rows (nb : nat) (c : contact T) : mat T :=
  let dir1 := left_orthogonal (c_normal c) in
  let dir2 := v2opp dir1 in
  map (fun d =>
         let r := vzeros (3 * nb) in
         let r1 := row_put r (3 * c_i1 c) (jc_row (c_p1 c) d) in
         row_put r1 (3 * c_i2 c) (vopp (jc_row (c_p2 c) d))) [dir1; dir2].
Definition Jf (w : world) : res (mat T) :=
  match w_contacts w with
  | [] => Ok []
  | _ => if Nat.eqb (w_fric_dirs w) 2
         then Ok (flat_map (jf_rows (length (w_bodies w))) (w_contacts w))
         else Err EShape
  end.

Definition body_at (bs : list (body T)) (f : body T -> T) (i : nat) : T :=
  match nth_error bs i with Some b => f b | None => 0 end.

(** world.py:144-151 [restitutions] *)
Definition restitutions (w : world) : vec T :=
  map (fun c => (body_at (w_bodies w) b_rest (c_i1 c) + body_at (w_bodies w) b_rest (c_i2 c))
                / nofZ 2) (w_contacts w).

(** world.py:213-224 [mu] *)
Definition mu_vec (w : world) : vec T :=
  map (fun c => 1 / nofZ 2 * (body_at (w_bodies w) b_fric (c_i1 c)
                              + body_at (w_bodies w) b_fric (c_i2 c))) (w_contacts w).
Definition mu (w : world) : mat T := mdiag (mu_vec w).

(** world.py:226-234 [E]: rows i*fric_dirs .. (i+1)*fric_dirs-1 have a 1 in column i *)
Definition E_mat (fd nc : nat) : mat T :=
  map (fun r => map (fun j => if Nat.eqb (r / fd) j then 1 else 0) (seq 0 nc))
      (seq 0 (fd * nc)).
Definition world_E (w : world) : mat T := E_mat (w_fric_dirs w) (length (w_contacts w)).

(** *** construction *)
(** bodies.index(b), comparing object identities *)
Fixpoint index_of (bs : list (body T)) (id : nat) : res nat :=
  match bs with
  | [] => Err EValue
  | b :: bs' => if Nat.eqb (b_id b) id then Ok 0%nat
                else do i <- index_of bs' id; Ok (S i)
  end.

(** world.py:19-71 [World.__init__].  The heap of force objects is passed along. *)
Definition world_init (o : oracle T) (hd : handler T) (heap : fheap T) (bodies : list (body T))
           (constraints : list (joint T)) (dt eps tol : T) (fric_dirs : nat)
           (post_stab strict : bool) : res world :=
  match bodies with
  | [] => Err EIndex
  | _ =>
      do js <- mapM (fun j =>
                       do i1 <- index_of bodies (j_b1 j);
                       match j_b2 j with
                       | None => Ok (j, i1, None)
                       | Some id => do i2 <- index_of bodies id; Ok (j, i1, Some i2)
                       end) constraints;
      let w0 := {| w_bodies := bodies; w_joints := js; w_heap := heap; w_t := nofZ 0;
                   w_dt := dt; w_eps := eps; w_tol := tol; w_fric_dirs := fric_dirs;
                   w_post_stab := post_stab; w_strict := strict;
                   w_v := []; w_contacts := [];
                   w_static_inverse := forallb j_static constraints;
                   w_num_constraints := fold_left (fun n j => (n + j_num j)%nat) constraints 0%nat;
                   w_M := world_M bodies; w_cache := None; w_clk := 0 |} in
      do w1 <- set_v w0 (cat3 (map b_v bodies));
      do w2 <- find_contacts o hd w1;
      if strict && negb (no_penetration w2) then Err EAssert else Ok w2
  end.

End World.
Arguments world : clear implicits.
Arguments engine : clear implicits.
