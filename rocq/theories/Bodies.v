(** Model of /repo/lcp_physics/physics/bodies.py (without [draw]) *)
From Coq Require Import List Arith ZArith Bool.
From Verif Require Import Num Tensor Utils.
Import ListNotations.

Section Bodies.
Context {T : Type} {N : Num T}.
Local Open Scope num_scope.

(** Broad-phase geometry objects of py3ode: GeomSphere / GeomBox with position, orientation and
    the [no_contact] set that bodies.py attaches to them.  Geoms are identified by the [b_id] of
    their body. *)
Inductive gshape := GSphere (r : T) | GBox (lx ly : T).
Record geom := mkGeom {
  g_shape : gshape;
  g_pos : v2 T;
  (** quaternion components (w, z) last passed to setQuaternion; x = y = 0.
      [None]: never set, the identity *)
  g_quat : option (T * T);
  g_no_contact : list nat
}.

(** Circle / Hull / Rect, bodies.py:116, 154, 253.  [last] is Hull.last_sat_idx *)
Inductive kind :=
| KCircle (rad : T)
| KHull (verts : list (v2 T)) (last : nat)
| KRect (dims : v2 T) (verts : list (v2 T)) (last : nat).

Record body := mkBody {
  b_id : nat;                 (** object identity *)
  b_kind : kind;
  b_p : v3 T;                 (** self.p = (rot, pos) *)
  b_v : v3 T;
  b_mass : T;
  b_inertia : T;
  b_fric : T;
  b_rest : T;
  b_eps : T;
  b_forces : list nat;        (** ids of force objects, see Forces.v *)
  b_geom : geom
}.

Definition b_rot (b : body) : T := fst (b_p b).       (** bodies.py:31 *)
Definition b_pos (b : body) : v2 T := snd (b_p b).    (** bodies.py:32 *)

(** [verts[i]], [verts[(i+1) % len(verts)]] *)
Definition vert (vs : list (v2 T)) (i : nat) : v2 T := nth i vs v2zero.
Definition next_vert (vs : list (v2 T)) (i : nat) : v2 T := vert vs ((i + 1) mod length vs).

(** bodies.py:216-226 [Hull._get_centroid] *)
Definition get_centroid (vs : list (v2 T)) : v2 T :=
  let '(num, den) :=
    fold_left (fun '(num, den) i =>
                 let v1 := vert vs i in
                 let v2' := next_vert vs i in
                 let cross := cross_2d v2' v1 in
                 (v2add num (v2scale cross (v2add v1 v2')), den + cross / nofZ 2))
              (seq 0 (length vs)) (v2zero, 0) in
  v2div (v2scale (1 / nofZ 6) num) den.

(** bodies.py:228-235 [Hull._is_clockwise] *)
Definition is_clockwise (vs : list (v2 T)) : bool :=
  let total :=
    fold_left (fun total i =>
                 let v1 := vert vs i in
                 let v2' := next_vert vs i in
                 total + (fst v2' - fst v1) * (snd v2' + snd v1))
              (seq 0 (length vs)) 0 in
  total <? 0.

(** bodies.py:179-189 [Hull._get_ang_inertia] *)
Definition hull_inertia (vs : list (v2 T)) (mass : T) : T :=
  let '(num, den) :=
    fold_left (fun '(num, den) i =>
                 let v1 := vert vs i in
                 let v2' := next_vert vs i in
                 let nc := nabs (cross_2d v2' v1) in
                 (num + nc * (v2dot v1 v1 + v2dot v1 v2' + v2dot v2' v2'), den + nc))
              (seq 0 (length vs)) (0, 0) in
  1 / nofZ 6 * mass * num / den.

(** bodies.py:125-126 *)
Definition circle_inertia (rad mass : T) : T := mass * rad * rad / nofZ 2.
(** bodies.py:269-270 *)
Definition rect_inertia (dims : v2 T) (mass : T) : T :=
  mass * (fst dims * fst dims + snd dims * snd dims) / nofZ 12.

Definition kind_inertia (k : kind) (mass : T) : T :=
  match k with
  | KCircle rad => circle_inertia rad mass
  | KHull vs _ => hull_inertia vs mass
  | KRect dims _ _ => rect_inertia dims mass
  end.

(** bodies.py:193 [max([v.dot(v).item() for v in self.verts])]; Python's max keeps the first
    maximum *)
Definition max_sq (vs : list (v2 T)) : T :=
  match vs with
  | [] => 0
  | v :: vs' => fold_left (fun m v => if m <? v2dot v v then v2dot v v else m) vs' (v2dot v v)
  end.

(** bodies.py:128-132, 191-200, 272-276 [_create_geom] *)
Definition kind_gshape (k : kind) (eps : T) : gshape :=
  match k with
  | KCircle rad => GSphere (rad + eps)
  | KHull vs _ => GSphere (nsqrt (max_sq vs) + eps)
  | KRect dims _ _ => GBox (fst dims + nofZ 2 * eps) (snd dims + nofZ 2 * eps)
  end.

(** bodies.py:25-39: a tensor of size 2 gets a zero angle in front, size 3 is used as is.
    Other sizes are not supported by the rest of the code. *)
Definition to_v3 (l : list T) : res (v3 T) :=
  match l with
  | [x; y] => Ok (0, (x, y))
  | [r; x; y] => Ok (r, (x, y))
  | _ => Err EShape
  end.

(** bodies.py:18-56 [Body.__init__] (col, thickness and dtype handling left out) *)
Definition body_init (id : nat) (k : kind) (pos vel : list T)
           (mass restitution fric_coeff eps : T) : res body :=
  do p <- to_v3 pos;
  do v <- to_v3 vel;
  Ok {| b_id := id; b_kind := k; b_p := p; b_v := v; b_mass := mass;
        b_inertia := kind_inertia k mass;
        b_fric := fric_coeff; b_rest := restitution; b_eps := eps; b_forces := [];
        b_geom := {| g_shape := kind_gshape k eps; g_pos := snd p; g_quat := None;
                     g_no_contact := [] |} |}.

(** bodies.py:44-47 [self.M] *)
Definition b_M (b : body) : mat T :=
  [ [b_inertia b; 0; 0]; [0; b_mass b; 0]; [0; 0; b_mass b] ].

(** bodies.py:211-214 [Hull.rotate_verts] *)
Definition hull_rotate (rot : T) (vs : list (v2 T)) : list (v2 T) :=
  map (rot_apply (rotation_matrix rot)) vs.
(** bodies.py:278-283 [Rect.rotate_verts] *)
Definition rect_rotate (rot : T) (vs : list (v2 T)) : list (v2 T) :=
  let m := rotation_matrix rot in
  let w0 := rot_apply m (vert vs 0) in
  let w1 := rot_apply m (vert vs 1) in
  [w0; w1; v2opp w0; v2opp w1].

Definition kind_rotate (rot : T) (k : kind) : kind :=
  match k with
  | KCircle rad => KCircle rad
  | KHull vs last => KHull (hull_rotate rot vs) last
  | KRect dims vs last => KRect dims (rect_rotate rot vs) last
  end.

(** update_geom_rotation defaults: Circle/Hull False, Rect True  bodies.py:134-138,202,208,285-289 *)
Definition kind_upd_rot (k : kind) : bool :=
  match k with KRect _ _ _ => true | _ => false end.

(** bodies.py:84-96 [Body.set_p] *)
Definition body_set_p (b : body) (new_p : v3 T) (upd_rot : bool) : body :=
  let g := b_geom b in
  let half := - fst new_p / nofZ 2 in
  let g' := {| g_shape := g_shape g;
               g_pos := snd new_p;
               g_quat := if upd_rot then Some (nsin half, ncos half) else g_quat g;
               g_no_contact := g_no_contact g |} in
  {| b_id := b_id b; b_kind := b_kind b; b_p := new_p; b_v := b_v b; b_mass := b_mass b;
     b_inertia := b_inertia b; b_fric := b_fric b; b_rest := b_rest b; b_eps := b_eps b;
     b_forces := b_forces b; b_geom := g' |}.

Definition with_kind (b : body) (k : kind) : body :=
  {| b_id := b_id b; b_kind := k; b_p := b_p b; b_v := b_v b; b_mass := b_mass b;
     b_inertia := b_inertia b; b_fric := b_fric b; b_rest := b_rest b; b_eps := b_eps b;
     b_forces := b_forces b; b_geom := b_geom b |}.
Definition with_v (b : body) (v : v3 T) : body :=
  {| b_id := b_id b; b_kind := b_kind b; b_p := b_p b; b_v := v; b_mass := b_mass b;
     b_inertia := b_inertia b; b_fric := b_fric b; b_rest := b_rest b; b_eps := b_eps b;
     b_forces := b_forces b; b_geom := b_geom b |}.
Definition with_forces (b : body) (fs : list nat) : body :=
  {| b_id := b_id b; b_kind := b_kind b; b_p := b_p b; b_v := b_v b; b_mass := b_mass b;
     b_inertia := b_inertia b; b_fric := b_fric b; b_rest := b_rest b; b_eps := b_eps b;
     b_forces := fs; b_geom := b_geom b |}.
Definition with_no_contact (b : body) (nc : list nat) : body :=
  let g := b_geom b in
  {| b_id := b_id b; b_kind := b_kind b; b_p := b_p b; b_v := b_v b; b_mass := b_mass b;
     b_inertia := b_inertia b; b_fric := b_fric b; b_rest := b_rest b; b_eps := b_eps b;
     b_forces := b_forces b;
     b_geom := {| g_shape := g_shape g; g_pos := g_pos g; g_quat := g_quat g;
                  g_no_contact := nc |} |}.

(** [set_p] as dispatched on the class: Circle bodies.py:137-138, Hull 202-206, Rect 285-286
    (which calls Hull's).  The vertices turn by the change of angle, if it is not 0. *)
Definition set_p (b : body) (new_p : v3 T) : body :=
  match b_kind b with
  | KCircle _ => body_set_p b new_p false
  | KHull _ _ | KRect _ _ _ =>
      let rot := fst new_p - fst (b_p b) in
      let b' := if rot =? 0 then b else with_kind b (kind_rotate rot (b_kind b)) in
      body_set_p b' new_p (kind_upd_rot (b_kind b))
  end.

(** bodies.py:80-82, 134-135, 208-209, 288-289 [move] *)
Definition move (b : body) (dt : T) : body :=
  set_p b (v3add (b_p b) (v3scale dt (b_v b))).

(** bodies.py:116-123 [Circle.__init__] *)
Definition circle_init (id : nat) (pos : list T) (rad : T) (vel : list T)
           (mass restitution fric_coeff eps : T) : res body :=
  body_init id (KCircle rad) pos vel mass restitution fric_coeff eps.

(** bodies.py:162-177 [Hull.__init__]; [mkk] builds the kind so that Rect can reuse it *)
Definition hull_init_gen (mkk : list (v2 T) -> kind) (id : nat) (ref_point : v2 T)
           (vertices : list (v2 T)) (vel : list T)
           (mass restitution fric_coeff eps : T) : res body :=
  if andb (Nat.ltb 2 (length vertices)) (is_clockwise vertices) then
    let centroid := get_centroid vertices in
    let vs := map (fun v => v2sub v centroid) vertices in
    let pos := v2add ref_point centroid in
    body_init id (mkk vs) [fst pos; snd pos] vel mass restitution fric_coeff eps
  else Err EAssert.
Definition hull_init (id : nat) (ref_point : v2 T) (vertices : list (v2 T)) (vel : list T)
           (mass restitution fric_coeff eps : T) : res body :=
  hull_init_gen (fun vs => KHull vs 0) id ref_point vertices vel mass restitution fric_coeff eps.

(** bodies.py:253-267 [Rect.__init__] *)
Definition rect_verts (dims : v2 T) : list (v2 T) :=
  let half := v2div dims (nofZ 2) in
  let v0 := half in
  let v1 := (fst half * nofZ (-1), snd half * nofZ 1) in
  [v0; v1; v2opp v0; v2opp v1].
Definition rect_init (id : nat) (pos : list T) (dims : v2 T) (vel : list T)
           (mass restitution fric_coeff eps : T) : res body :=
  do p <- to_v3 pos;
  do b <- hull_init_gen (fun vs => KRect dims vs 0) id (snd p) (rect_verts dims) vel
                        mass restitution fric_coeff eps;
  if Nat.eqb (length pos) 3 then Ok (set_p b p) else Ok b.

(** bodies.py:104-106 [Body.add_no_contact] *)
Definition add_no_contact (b other : body) : body * body :=
  (with_no_contact b (b_id other :: g_no_contact (b_geom b)),
   with_no_contact other (b_id b :: g_no_contact (b_geom other))).

Definition b_verts (b : body) : list (v2 T) :=
  match b_kind b with KCircle _ => [] | KHull vs _ => vs | KRect _ vs _ => vs end.
Definition b_last (b : body) : nat :=
  match b_kind b with KCircle _ => 0 | KHull _ l => l | KRect _ _ l => l end.
Definition b_rad (b : body) : T := match b_kind b with KCircle r => r | _ => 0 end.
Definition is_circle (b : body) : bool := match b_kind b with KCircle _ => true | _ => false end.
(** assignment to [last_sat_idx] *)
Definition set_last (b : body) (i : nat) : body :=
  match b_kind b with
  | KCircle _ => b
  | KHull vs _ => with_kind b (KHull vs i)
  | KRect d vs _ => with_kind b (KRect d vs i)
  end.

End Bodies.
Arguments gshape : clear implicits.
Arguments geom : clear implicits.
Arguments kind : clear implicits.
Arguments body : clear implicits.
