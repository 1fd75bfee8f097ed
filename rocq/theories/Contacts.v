(** Model of /repo/lcp_physics/physics/contacts.py *)
From Coq Require Import List Arith ZArith Bool.
From Verif Require Import Num Tensor Utils Bodies.
Import ListNotations.

Section Contacts.
Context {T : Type} {N : Num T}.
Local Open Scope num_scope.

(** one element of world.contacts: ((normal, p1, p2, penetration), geom1.body, geom2.body) *)
Record contact := mkContact {
  c_normal : v2 T; c_p1 : v2 T; c_p2 : v2 T; c_pen : T; c_i1 : nat; c_i2 : nat }.

(** What the code takes from outside: py3ode's broad phase ([space.collide]), py3ode's narrow
    phase ([ode.collide], only used by OdeContactHandler) and random.choice.  The first argument
    is the number of oracle calls made so far, so nothing is assumed about their repeatability.
    [o_collide k geoms]: the pairs of geom numbers reported, in callback order.
    [o_narrow k g1 g2]: contact points as ((x,y,z), normal, depth).
    [o_choice k n]: the index picked out of n (reduced modulo n below). *)
Record oracle := mkOracle {
  o_collide : nat -> list (geom T) -> list (nat * nat);
  o_narrow : nat -> geom T -> geom T -> list ((v2 T * T) * v2 T * T);
  o_choice : nat -> nat -> nat }.

(** contacts.py:207-217 [get_support]; [None]: best_idx unbound *)
Definition get_support_from (start : T) (pts : list (v2 T)) (dir : v2 T)
  : option (v2 T * nat) * T :=
  fold_left (fun '(best, best_norm) i =>
               let p := vert pts i in
               let cur := v2dot p dir in
               if best_norm <=? cur then (Some (p, i), cur) else (best, best_norm))
            (seq 0 (length pts)) (None, start).
Definition get_support (pts : list (v2 T)) (dir : v2 T) : res (v2 T * nat) :=
  match fst (get_support_from (nofZ (-1)) pts dir) with
  | Some r => Ok r
  | None => Err EUnbound
  end.

(** unit outward normal of edge [idx]: contacts.py:122-124, 229-231, 260-262 *)
Definition edge_vec (vs : list (v2 T)) (idx : nat) : v2 T :=
  v2sub (next_vert vs idx) (vert vs idx).
Definition edge_normal (vs : list (v2 T)) (idx : nat) : v2 T :=
  v2div (left_orthogonal (edge_vec vs idx)) (v2norm (edge_vec vs idx)).

(** contacts.py:332-352 [get_barycentric_coords], two points *)
Definition bary2 (p a b : v2 T) : T * T :=
  let diff := v2sub b a in
  let dn := v2norm diff in
  let nd := v2div diff dn in
  (v2dot (v2sub b p) nd / dn, v2dot (v2sub p a) nd / dn).
(** three points.  torch.inverse of [[ax bx cx];[ay by cy];[1 1 1]] times [px;py;1], written
    with Cramer's rule; a zero determinant raises (simplification: torch.inverse runs a pivoted
    LU, so rounding differs and a singular matrix may slip through in floating point). *)
Definition det3 (a b c : v2 T) : T :=
  fst a * (snd b - snd c) - fst b * (snd a - snd c) + fst c * (snd a - snd b).
Definition bary3 (p a b c : v2 T) : res (T * T * T) :=
  let d := det3 a b c in
  if d =? 0 then Err ESingular
  else Ok (det3 p b c / d, det3 a p c / d, det3 a b p / d).

(** contacts.py:294-330 [get_closest] *)
Definition get_closest (p : v2 T) (simplex : list (v2 T)) : res (v2 T * list nat) :=
  match simplex with
  | [a] => Ok (a, [0]%nat)
  | [a; b] =>
      let '(u, v) := bary2 p a b in
      if u <=? 0 then Ok (b, [1]%nat)
      else if v <=? 0 then Ok (a, [0]%nat)
      else Ok (v2add (v2scale u a) (v2scale v b), [0; 1]%nat)
  | [a; b; c] =>
      let '(uAB, vAB) := bary2 p a b in
      let '(uBC, vBC) := bary2 p b c in
      let '(uCA, vCA) := bary2 p c a in
      do uvw <- bary3 p a b c;
      let '(uABC, vABC, wABC) := uvw in
      if (vAB <=? 0) && (uCA <=? 0) then Ok (a, [0]%nat)
      else if (vBC <=? 0) && (uAB <=? 0) then Ok (b, [1]%nat)
      else if (vCA <=? 0) && (uBC <=? 0) then Ok (c, [2]%nat)
      else if (0 <? uAB) && (0 <? vAB) && (wABC <=? 0) then
        Ok (v2add (v2scale uAB a) (v2scale vAB b), [0; 1]%nat)
      else if (0 <? uBC) && (0 <? vBC) && (uABC <=? 0) then
        Ok (v2add (v2scale uBC b) (v2scale vBC c), [1; 2]%nat)
      else if (0 <? uCA) && (0 <? vCA) && (vABC <=? 0) then
        Ok (v2add (v2scale uCA c) (v2scale vCA a), [2; 0]%nat)
      else if (0 <? uABC) && (0 <? vABC) && (0 <? wABC) then Ok (p, [0; 1; 2]%nat)
      else Err EValue
  | _ => Err EValue
  end.

(** contacts.py:85-105, the GJK loop.  The simplex is a list of vertex indices: membership
    [support in set(simplex)] is tensor identity.  Returns (closest, ids_used).  [fuel] bounds
    the iterations. *)
Fixpoint gjk (fuel : nat) (tp : v2 T) (vs : list (v2 T)) (simplex : list nat)
  : res (v2 T * list nat) :=
  match fuel with
  | O => Err EFuel
  | S fuel' =>
      do cl <- get_closest tp (map (vert vs) simplex);
      let '(closest, ids) := cl in
      let s k := vert vs (nth (nth k ids 0%nat) simplex 0%nat) in
      if Nat.eqb (length ids) 3 then Ok (closest, ids)
      else
        let search :=
          if Nat.eqb (length ids) 2 then
            let d := left_orthogonal (v2sub (s 0%nat) (s 1%nat)) in
            if v2dot d (v2sub tp (s 0%nat)) <? 0 then v2opp d else d
          else v2sub tp closest in
        if (fst search =? 0) && (snd search =? 0) then Ok (closest, ids)
        else
          do sup <- get_support vs search;
          if existsb (Nat.eqb (snd sup)) simplex then Ok (closest, ids)
          else gjk fuel' tp vs (map (fun k => nth k simplex 0%nat) ids ++ [snd sup])
  end.

(** contacts.py:116-138, SAT for a circle (centre [center] in the hull's frame, radius [rad])
    against the hull.  State: last_sat_idx, best_dist, best (normal, pt2), early exit flag. *)
Record sat_state := mkSat {
  ss_last : nat; ss_dist : T; ss_best : option (v2 T * v2 T); ss_exit : bool }.
Definition circle_sat_step (vs : list (v2 T)) (center : v2 T) (rad eps : T)
           (st : sat_state) (i : nat) : sat_state :=
  if ss_exit st then st
  else
    let idx := i mod length vs in
    let normal := edge_normal vs idx in
    let dist := v2dot normal (v2sub center (vert vs idx)) - rad in
    if ss_dist st <? dist then
      if eps <? dist then mkSat idx (ss_dist st) (ss_best st) true
      else mkSat idx dist
                 (Some (normal, v2add center (v2scale (- (dist + rad)) normal))) false
    else st.
Definition circle_sat (vs : list (v2 T)) (center : v2 T) (rad eps : T) (start : nat)
  : sat_state :=
  fold_left (circle_sat_step vs center rad eps) (seq start (length vs))
            (mkSat start (- ncst C_1e10) None false).

(** contacts.py:219-250 [test_separations].  [sep_info = None] for the early exit. *)
Record sep := mkSep {
  sep_dist : T; sep_idx : nat;
  (** best_pt1, best_pt2, -best_normal, best_vertex, best_edge_norm *)
  sep_info : option (v2 T * v2 T * v2 T * nat * T) }.
(** loop state: best_dist, (normal, pt1, pt2, vertex, edge_norm, edge) once assigned, and the
    early return value *)
Record sep_state := mkSepSt {
  st_dist : T; st_best : option (v2 T * v2 T * v2 T * nat * T * nat); st_ret : option (T * nat) }.
Definition sep_step (b1 b2 : body T) (eps : T) (r : res sep_state) (i : nat) : res sep_state :=
  do st <- r;
  match st_ret st with
  | Some _ => Ok st
  | None =>
      let vs1 := b_verts b1 in
      let idx := i mod length vs1 in
      let edge_norm := v2norm (edge_vec vs1 idx) in
      let normal := edge_normal vs1 idx in
      do sup <- get_support (b_verts b2) (v2opp normal);
      let sp := v2sub (v2add (fst sup) (b_pos b2)) (b_pos b1) in
      let dist := v2dot normal (v2sub sp (vert vs1 idx)) in
      if st_dist st <? dist then
        if eps <? dist then Ok (mkSepSt (st_dist st) (st_best st) (Some (dist, idx)))
        else
          let pt1 := v2add sp (v2scale (- dist) normal) in
          let pt2 := v2sub (v2add pt1 (b_pos b1)) (b_pos b2) in
          Ok (mkSepSt dist (Some (normal, pt1, pt2, snd sup, edge_norm, idx)) None)
      else Ok st
  end.
Definition test_separations (b1 b2 : body T) (eps : T) : res sep :=
  do st <- fold_left (sep_step b1 b2 eps) (seq (b_last b1) (length (b_verts b1)))
                     (Ok (mkSepSt (- ncst C_1e10) None None));
  match st_ret st with
  | Some (d, idx) => Ok (mkSep d idx None)
  | None =>
      match st_best st with
      | Some (normal, pt1, pt2, vtx, en, idx) =>
          Ok (mkSep (st_dist st) idx (Some (pt1, pt2, v2opp normal, vtx, en)))
      | None => Err EUnbound
      end
  end.

(** contacts.py:252-267 [get_incident_edge].  Index -1 (no dot below 1e10) denotes the last
    edge in Python. *)
Definition get_incident_edge (ref_normal : v2 T) (vs : list (v2 T)) (inc_vertex : nat) : nat :=
  let n := length vs in
  let edges := [(inc_vertex + (n - 1)) mod n; inc_vertex]%nat in
  snd (fold_left (fun '(min_dot, best) i =>
                    let dot := v2dot ref_normal (edge_normal vs i) in
                    if dot <? min_dot then (dot, i) else (min_dot, best))
                 edges (ncst C_1e10, (n - 1)%nat)).

(** contacts.py:269-292 [clip_segment_to_line] *)
Definition clip_segment_to_line (va vb : v2 T) (normal : v2 T) (offset : T) : list (v2 T) :=
  let d0 := v2dot normal va + offset in
  let d1 := v2dot normal vb + offset in
  let cl := (if 0 <=? d0 then [va] else []) ++ (if 0 <=? d1 then [vb] else []) in
  if (d0 * d1 <? 0) || Nat.ltb (length cl) 2 then
    let interp := d0 / (d0 - d1) in
    cl ++ [v2add va (v2scale interp (v2sub vb va))]
  else cl.

(** contacts.py:157-178 and 180-201: the incident edge of [inc] (moved to [ref]'s frame) is
    clipped to the slab around [ref]'s edge; [normal] points out of [ref].  Result: for each kept
    point (point in ref's frame, same point in inc's frame, dist). *)
Definition clip_face (ref inc : body T) (normal : v2 T) (edge_norm : T) (ref_idx inc_vertex : nat)
           (eps : T) : list (v2 T * v2 T * T) :=
  let half := edge_norm / nofZ 2 in
  let ie := get_incident_edge normal (b_verts inc) inc_vertex in
  let shift v := v2sub (v2add v (b_pos inc)) (b_pos ref) in
  let w0 := shift (vert (b_verts inc) ie) in
  let w1 := shift (next_vert (b_verts inc) ie) in
  let plane := left_orthogonal normal in
  match clip_segment_to_line w0 w1 plane half with
  | c0 :: c1 :: _ =>
      let cl := clip_segment_to_line c0 c1 (v2opp plane) half in
      flat_map (fun v =>
                  let dist := v2dot normal (v2sub v (vert (b_verts ref) ref_idx)) in
                  if dist <=? eps then
                    let pt1 := v2add v (v2scale (- dist) normal) in
                    let pt2 := v2sub (v2add pt1 (b_pos ref)) (b_pos inc) in
                    [(pt1, pt2, dist)]
                  else []) cl
  | _ => []
  end.

(** manifold point (normal, p1, p2, penetration) *)
Definition mpoint : Type := (v2 T * v2 T * v2 T * T)%type.

(** contacts.py:68-79 *)
Definition circle_circle (b1 b2 : body T) (eps : T) : list mpoint :=
  let r := b_rad b1 + b_rad b2 in
  let normal := v2sub (b_pos b1) (b_pos b2) in
  let dist := v2norm normal in
  let pen := r - dist in
  if pen <? - eps then []
  else
    let normal := v2div normal dist in
    let p1 := v2scale (b_rad b1 - pen / nofZ 2) (v2opp normal) in
    let p2 := v2scale (b_rad b2 - pen / nofZ 2) normal in
    [(normal, p1, p2, pen)].

(** contacts.py:85-138 with [c] the circle and [hu] the hull, [start] the index picked by
    random.choice.  Result: manifold point seen from the circle as body 1, and the hull (whose
    last_sat_idx may change). *)
Definition circle_hull (fuel : nat) (c hu : body T) (eps : T) (start : nat)
  : res (option mpoint * body T) :=
  let tp := v2sub (b_pos c) (b_pos hu) in
  let vs := b_verts hu in
  do g <- gjk fuel tp vs [start];
  let '(closest, ids) := g in
  if Nat.ltb (length ids) 3 then
    let pt2 := closest in
    let pt1 := v2sub (v2add closest (b_pos hu)) (b_pos c) in
    let dist := v2norm pt1 - b_rad c in
    if eps <? dist then Ok (None, hu)
    else
      let normal := v2div (v2opp pt1) (v2norm pt1) in
      Ok (Some (normal, pt1, pt2, - dist), hu)
  else
    let st := circle_sat vs tp (b_rad c) eps (b_last hu) in
    let hu' := set_last hu (ss_last st) in
    if ss_exit st then Ok (None, hu')
    else
      match ss_best st with
      | Some (normal, pt2) =>
          let pt1 := v2sub (v2add pt2 (b_pos hu)) (b_pos c) in
          Ok (Some (normal, pt1, pt2, - ss_dist st), hu')
      | None => Err EUnbound
      end.

(** contacts.py:145-201 *)
Definition hull_hull (b1 b2 : body T) (eps : T) : res (list mpoint * body T * body T) :=
  do c1 <- test_separations b1 b2 eps;
  let b1' := set_last b1 (sep_idx c1) in
  if eps <? sep_dist c1 then Ok ([], b1', b2)
  else
    do c2 <- test_separations b2 b1' eps;
    let b2' := set_last b2 (sep_idx c2) in
    if eps <? sep_dist c2 then Ok ([], b1', b2')
    else
      if sep_dist c1 <? sep_dist c2 then
        match sep_info c2 with
        | None => Err EType
        | Some (_, _, nn, vtx, en) =>
            let normal := v2opp nn in
            let pts := clip_face b2' b1' normal en (sep_idx c2) vtx eps in
            Ok (map (fun '(ptr, pti, dist) => (normal, pti, ptr, - dist)) pts, b1', b2')
        end
      else
        match sep_info c1 with
        | None => Err EType
        | Some (_, _, nn, vtx, en) =>
            let normal := v2opp nn in
            let pts := clip_face b1' b2' normal en (sep_idx c1) vtx eps in
            Ok (map (fun '(ptr, pti, dist) => (v2opp normal, ptr, pti, - dist)) pts, b1', b2')
        end.

(** world.bodies[i]; the index always comes from geom.body *)
Definition get_body (bs : list (body T)) (i : nat) : res (body T) :=
  match nth_error bs i with Some b => Ok b | None => Err EIndex end.

(** contact callback: eps, oracle-call counter, bodies, geom1.body, geom2.body.  Returns the
    appended contacts, the bodies (last_sat_idx) and the counter. *)
Definition handler : Type :=
  T -> nat -> list (body T) -> nat -> nat -> res (list contact * list (body T) * nat).

Definition mk_contacts (i1 i2 : nat) (ps : list mpoint) : list contact :=
  map (fun '(n, p1, p2, pen) => mkContact n p1 p2 pen i1 i2) ps.
(** contacts.py:140-144 *)
Definition flip_point (p : mpoint) : mpoint :=
  let '(n, p1, p2, pen) := p in (v2opp n, p2, p1, pen).

(** contacts.py:57-205 [DiffContactHandler.__call__] *)
Definition diff_handler (fuel : nat) (o : oracle) : handler :=
  fun eps clk bs i1 i2 =>
    do b1 <- get_body bs i1;
    do b2 <- get_body bs i2;
    if existsb (Nat.eqb (b_id b1)) (g_no_contact (b_geom b2)) then Ok ([], bs, clk)
    else if is_circle b1 && is_circle b2 then
      Ok (mk_contacts i1 i2 (circle_circle b1 b2 eps), bs, clk)
    else if is_circle b1 || is_circle b2 then
      let flip := is_circle b2 in
      let '(c, hu, ih) := if flip then (b2, b1, i1) else (b1, b2, i2) in
      let n := length (b_verts hu) in
      if Nat.eqb n 0 then Err EIndex
      else
        do r <- circle_hull fuel c hu eps (o_choice o clk n mod n);
        let '(op, hu') := r in
        let ps := match op with
                  | None => []
                  | Some p => [if flip then flip_point p else p]
                  end in
        Ok (mk_contacts i1 i2 ps, upd bs ih hu', S clk)
    else
      do r <- hull_hull b1 b2 eps;
      let '(ps, b1', b2') := r in
      Ok (mk_contacts i1 i2 ps, upd (upd bs i1 b1') i2 b2', clk).

(** contacts.py:24-47 [OdeContactHandler.__call__] ([getContactGeomParams] also returns the two
    geoms; they are the ones passed in).  [done]: the early return of line 42. *)
Definition ode_handler (o : oracle) : handler :=
  fun eps clk bs i1 i2 =>
    do b1 <- get_body bs i1;
    do b2 <- get_body bs i2;
    if existsb (Nat.eqb (b_id b1)) (g_no_contact (b_geom b2)) then Ok ([], bs, clk)
    else
      let two_eps := nofZ 2 * eps in
      let '(cs, _) :=
        fold_left
          (fun (acc : list contact * bool) '(pt, normal, depth) =>
             let '(cs, done) := acc in
             if done then (cs, done)
             else if 0 <? snd pt then (cs, done)
             else
               let pen := depth - two_eps in
               if pen <? nofZ (-2) * eps then (cs, true)
               else (cs ++ [mkContact normal (v2sub (fst pt) (g_pos (b_geom b1)))
                                      (v2sub (fst pt) (g_pos (b_geom b2))) pen i1 i2], done))
          (o_narrow o clk (b_geom b1) (b_geom b2)) ([], false) in
      Ok (cs, bs, S clk).

End Contacts.
Arguments contact : clear implicits.
Arguments oracle : clear implicits.
Arguments handler : clear implicits.
Arguments sat_state : clear implicits.
Arguments sep : clear implicits.
Arguments sep_state : clear implicits.
