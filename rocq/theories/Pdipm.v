(** Model of /repo/lcp_physics/lcp/solvers/pdipm.py (the functions LCPFunction uses: forward,
    get_step, solve_kkt, pre_factor_kkt, factor_kkt), CPU path.

    A batch is a list of elements, each with its own problem and factorisations; the sizes
    nz, nineq, neq are common to the batch (get_sizes, util.py:22-38).  Operations that torch
    performs on the whole batch at once are maps over the list; the places where batch elements
    influence each other are explicit. *)
From Coq Require Import List Arith ZArith Bool.
From Verif Require Import Num Tensor Lapack.
Import ListNotations.

Section Pdipm.
Context {T : Type} {N : Num T}.
Local Open Scope num_scope.
Variable la : lapack T.
Variables nz nineq neq : nat.

(** one problem of the batch: minimise 1/2 x'Qx + p'x style data with G, h, A, b, F *)
Record prob := mkProb {
  pr_Q : mat T; pr_p : vec T; pr_G : mat T; pr_h : vec T; pr_A : mat T; pr_b : vec T;
  pr_F : mat T }.

(** pdipm.py:357-408 [pre_factor_kkt] *)
Definition pre_factor_kkt (Q G F A : mat T) : res (lu T * lu T * mat T) :=
  do Q_LU <- la_getrf la Q;
  let G_invQ_GT := madd (mm nineq G (getrs_mat la Q_LU nz nineq (mtr nz G))) F in
  let pivots := seq 1 (neq + nineq) in
  if Nat.ltb 0 neq then
    let invQ_AT := getrs_mat la Q_LU nz neq (mtr nz A) in
    let A_invQ_AT := mm neq A invQ_AT in
    let G_invQ_AT := mm neq G invQ_AT in
    do LU_A <- la_getrf la A_invQ_AT;
    let P_A := unpack_P (length (fst LU_A)) (snd LU_A) in
    let L_A := unpack_L (fst LU_A) in
    let U_A := unpack_U (fst LU_A) in
    let U_inv := getrs_mat la LU_A neq neq (mm neq P_A L_A) in
    let S_21 := mm neq G_invQ_AT U_inv in
    let T_ := getrs_mat la LU_A neq nineq (mtr neq G_invQ_AT) in
    let S_12 := mm nineq U_A T_ in
    let S_22 := mzeros nineq nineq in
    let data := vcat (hcat (fst LU_A) S_12) (hcat S_21 S_22) in
    let R := msub G_invQ_GT (mm nineq G_invQ_AT T_) in
    Ok (Q_LU, (data, snd LU_A ++ skipn neq pivots), R)
  else
    Ok (Q_LU, (mzeros nineq nineq, pivots), G_invQ_GT).

(** pdipm.py:414-454 [factor_kkt] (the global [factor_kkt_eye] is compared by a size that never
    matches, so it is recomputed on every call and carries no state) *)
Definition factor_kkt (S : lu T) (R : mat T) (d : vec T) : res (lu T) :=
  let T_ := madd (mdiag (map (fun x => 1 / x) d)) R in
  do T_LU <- la_getrf la T_;
  let old_packed := map (fun p => p - neq)%nat (skipn neq (snd S)) in
  let oldP : mat T := unpack_P (length (fst T_LU)) old_packed in
  let newP : mat T := unpack_P (length (fst T_LU)) (snd T_LU) in
  let data1 :=
    if Nat.ltb 0 neq then
      let S_21 := map (firstn neq) (skipn neq (fst S)) in
      blk_put (fst S) neq 0 (mm neq (mtr nineq newP) (mm neq oldP S_21))
    else fst S in
  let pivots := firstn neq (snd S) ++ map (fun p => p + neq)%nat (snd T_LU) in
  Ok (blk_put data1 neq neq (fst T_LU), pivots).

(** pdipm.py:325-354 [solve_kkt]: (dx, ds, dz, dy) *)
Definition dirs : Type := (vec T * vec T * vec T * vec T)%type.
Definition solve_kkt (Q_LU : lu T) (d : vec T) (G A : mat T) (S_LU : lu T)
           (rx rs rz ry : vec T) : dirs :=
  let invQ_rx := la_getrs la Q_LU rx in
  let hG := vsub (vadd (mv G invQ_rx) (vdiv rs d)) rz in
  let h := if Nat.ltb 0 neq then vsub (mv A invQ_rx) ry ++ hG else hG in
  let w := vopp (la_getrs la S_LU h) in
  let wz := skipn neq w in
  let wy := firstn neq w in
  let g1 := vsub (vopp rx) (vm nz wz G) in
  let g1 := if Nat.ltb 0 neq then vsub g1 (vm nz wy A) else g1 in
  let g2 := vsub (vopp rs) wz in
  (la_getrs la Q_LU g1, vdiv g2 d, wz, wy).

(** torch.min / max of a non-empty vector (NaN not considered) *)
Definition vmin (x : vec T) : T :=
  match x with [] => 0 | a :: x' => fold_left (fun m b => if b <? m then b else m) x' a end.
Definition vmax (x : vec T) : T :=
  match x with [] => 0 | a :: x' => fold_left (fun m b => if m <? b then b else m) x' a end.
(** torch.min of two tensors *)
Definition nmin (a b : T) : T := if b <? a then b else a.

(** pdipm.py:182-186 [get_step] on the whole batch.  [a.max()] ranges over every element of the
    batch. *)
Definition ratios (v dv : vec T) : vec T := vmap2 (fun a b => - a / b) v dv.
Definition step_cap (vs : list (vec T * vec T)) : T :=
  let m := vmax (flat_map (fun '(v, dv) => ratios v dv) vs) in
  if 1 <? m then m else 1.
Definition step1 (cap : T) (v dv : vec T) : T :=
  vmin (vmap2 (fun a b => if 0 <? b then cap else - a / b) v dv).
Definition get_step (vs : list (vec T * vec T)) : list T :=
  let cap := step_cap vs in
  map (fun '(v, dv) => step1 cap v dv) vs.

(** primal-dual iterate; [i_y] is [] when there are no equality constraints (None in Python) *)
Record iter := mkIter { i_x : vec T; i_s : vec T; i_z : vec T; i_y : vec T }.

(** batch element: problem, Q_LU, S_LU, R and the current iterate *)
Record elt := mkElt {
  e_pr : prob; e_QLU : lu T; e_SLU : lu T; e_R : mat T; e_it : iter }.
Definition elt_with_S (e : elt) (S : lu T) : elt :=
  mkElt (e_pr e) (e_QLU e) S (e_R e) (e_it e).
Definition elt_with_it (e : elt) (it : iter) : elt :=
  mkElt (e_pr e) (e_QLU e) (e_SLU e) (e_R e) it.

(** pdipm.py:65-75: if the minimum M is <= 0, subtract M - 1 *)
Definition shift_pos (s : vec T) : vec T :=
  let m := vmin s in
  if m <=? 0 then map (fun a => a - (m - 1)) s else s.

(** pdipm.py:57-75: initial point of one element *)
Definition init_elt (pr : prob) (Q_LU S_LU : lu T) (R : mat T) : res elt :=
  let d := vones nineq in
  do SL <- factor_kkt S_LU R d;
  let '(x, s, z, y) := solve_kkt Q_LU d (pr_G pr) (pr_A pr) SL (pr_p pr) (vzeros nineq)
                                 (vopp (pr_h pr)) (vopp (pr_b pr)) in
  Ok (mkElt pr Q_LU SL R (mkIter x (shift_pos s) (shift_pos z) y)).

(** pdipm.py:82-90: residual vectors *)
Definition r_x (e : elt) : vec T :=
  let pr := e_pr e in let it := e_it e in
  let zG := vm nz (i_z it) (pr_G pr) in
  let yz := if Nat.ltb 0 neq then vadd (vm nz (i_y it) (pr_A pr)) zG else zG in
  vadd (vadd yz (mv (pr_Q pr) (i_x it))) (pr_p pr).
Definition r_z (e : elt) : vec T :=
  let pr := e_pr e in let it := e_it e in
  vsub (vsub (vadd (mv (pr_G pr) (i_x it)) (i_s it)) (pr_h pr)) (mv (pr_F pr) (i_z it)).
Definition r_y (e : elt) : vec T :=
  let pr := e_pr e in let it := e_it e in
  if Nat.ltb 0 neq then vsub (mv (pr_A pr) (i_x it)) (pr_b pr) else [].

(** pdipm.py:91-96 *)
Definition mu_of (e : elt) : T :=
  nabs (dot (i_s (e_it e)) (i_z (e_it e)) / nofZ (Z.of_nat nineq)).
Definition resid_of (e : elt) : T :=
  let y_resid := if Nat.ltb 0 neq then vnorm (r_y e) else 0 in
  let pri := y_resid + vnorm (r_z e) in
  pri + vnorm (r_x e) + nofZ (Z.of_nat nineq) * mu_of e.

(** pdipm.py:98 *)
Definition d_of (e : elt) : vec T := vdiv (i_z (e_it e)) (i_s (e_it e)).

(** pdipm.py:100: factor_kkt for the batch; one failure makes torch raise for all *)
Definition factor_batch (es : list elt) : res (list elt) :=
  mapM (fun e => do SL <- factor_kkt (e_SLU e) (e_R e) (d_of e); Ok (elt_with_S e SL)) es.

(** pdipm.py:107-132: best iterate so far, per element, with its residual *)
Definition best_t : Type := list (T * iter).
Definition improved (best : best_t) (es : list elt) : list bool :=
  map2 (fun b e => resid_of e <? fst b) best es.
Definition best_update (best : best_t) (es : list elt) : best_t :=
  map2 (fun b e => if resid_of e <? fst b then (resid_of e, e_it e) else b) best es.

(** pdipm.py:138-139: affine direction *)
Definition aff_dir (e : elt) : dirs :=
  solve_kkt (e_QLU e) (d_of e) (pr_G (e_pr e)) (pr_A (e_pr e)) (e_SLU e)
            (r_x e) (i_z (e_it e)) (r_z e) (r_y e).

(** pdipm.py:142-144 and 164-166 *)
Definition alphas (k : T -> T) (ds : list (elt * dirs)) : list T :=
  let sz := get_step (map (fun '(e, (_, _, dz, _)) => (i_z (e_it e), dz)) ds) in
  let ss := get_step (map (fun '(e, (_, ds, _, _)) => (i_s (e_it e), ds)) ds) in
  map2 (fun a b => nmin (k (nmin a b)) 1) sz ss.

(** pdipm.py:145-158: corrector direction of one element given its affine step length *)
Definition cor_dir (e : elt) (aff : dirs) (alpha : T) : dirs :=
  let '(_, ds, dz, _) := aff in
  let it := e_it e in
  let t1 := vadd (i_s it) (vscale alpha ds) in
  let t2 := vadd (i_z it) (vscale alpha dz) in
  let t3 := dot t1 t2 in
  let t4 := dot (i_s it) (i_z it) in
  let sig := t3 / t4 * (t3 / t4) * (t3 / t4) in
  let m := - mu_of e * sig in
  let rs := vdiv (map (fun a => m + a) (vmul ds dz)) (i_s it) in
  solve_kkt (e_QLU e) (d_of e) (pr_G (e_pr e)) (pr_A (e_pr e)) (e_SLU e)
            (vzeros nz) rs (vzeros nineq) (vzeros neq).

(** pdipm.py:160-163 *)
Definition dirs_add (a b : dirs) : dirs :=
  let '(dx, ds, dz, dy) := a in
  let '(dx', ds', dz', dy') := b in
  (vadd dx dx', vadd ds ds', vadd dz dz', vadd dy dy').

(** pdipm.py:167-174 *)
Definition iter_step (it : iter) (d : dirs) (alpha : T) : iter :=
  let '(dx, ds, dz, dy) := d in
  mkIter (vadd (i_x it) (vscale alpha dx)) (vadd (i_s it) (vscale alpha ds))
         (vadd (i_z it) (vscale alpha dz)) (vadd (i_y it) (vscale alpha dy)).

(** pdipm.py:138-163: the predictor (affine) and the total directions of the batch *)
Definition batch_affs (es : list elt) : list (elt * dirs) := map (fun e => (e, aff_dir e)) es.
Definition batch_dirs (es : list elt) : list (elt * dirs) :=
  let affs := batch_affs es in
  map2 (fun '(e, aff) a => (e, dirs_add aff (cor_dir e aff a))) affs (alphas (fun a => a) affs).

(** pdipm.py:138-174: one predictor-corrector update of the batch *)
Definition batch_step (es : list elt) : list elt :=
  let tot := batch_dirs es in
  map2 (fun '(e, d) a => elt_with_it e (iter_step (e_it e) d a)) tot
       (alphas (fun a => ncst C_0_999 * a) tot).

(** pdipm.py:80-179: the main loop.  [k] iterations left.  The result is the best iterate of
    each element ([None]: factor_kkt failed before any iterate was recorded) and the elements
    with their final S_LU (mutated in place). *)
Fixpoint pd_loop (k : nat) (eps : T) (lim : nat) (es : list elt) (best : option best_t)
         (nni : nat) : res (option best_t * list elt) :=
  match k with
  | O => match best with
         | None => Err ENone       (** best['resids'].max() on None, line 176 *)
         | Some _ => Ok (best, es)
         end
  | S k' =>
      match factor_batch es with
      | Err _ => Ok (best, es)
      | Ok es1 =>
          let '(best1, nni1) :=
            match best with
            | None => (map (fun e => (resid_of e, e_it e)) es, 0%nat)
            | Some b => (best_update b es,
                         if existsb (fun x => x) (improved b es) then 0%nat else S nni)
            end in
          if Nat.eqb nni1 lim || (vmax (map fst best1) <? eps)
             || (ncst C_1e100 <? vmin (map mu_of es))
          then Ok (Some best1, es1)
          else pd_loop k' eps lim (batch_step es1) (Some best1) nni1
      end
  end.

(** pdipm.py:49-179 [forward] *)
Definition pd_forward (eps : T) (lim max_iter : nat)
           (ps : list (prob * (lu T * lu T * mat T))) : res (option best_t * list elt) :=
  do es <- mapM (fun '(pr, (Q_LU, S_LU, R)) => init_elt pr Q_LU S_LU R) ps;
  pd_loop max_iter eps lim es None 0.

End Pdipm.
Arguments prob : clear implicits.
Arguments iter : clear implicits.
Arguments elt : clear implicits.
Arguments best_t : clear implicits.
Arguments dirs : clear implicits.
