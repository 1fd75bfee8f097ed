(** Model of /repo/lcp_physics/physics/engines.py *)
From Coq Require Import List Arith ZArith Bool.
From Verif Require Import Num Tensor Utils Bodies Forces Constraints Contacts World
     Lapack Pdipm Lcp.
Import ListNotations.

Section Engines.
Context {T : Type} {N : Num T}.
Local Open Scope num_scope.
Variable la : lapack T.

(** engines.py:38-42, 96-99 *)
Definition dyn_matrix (n neq : nat) (M Je : mat T) : mat T :=
  if Nat.ltb 0 neq then
    vcat (hcat M (mopp (mtr n Je))) (hcat Je (mzeros neq neq))
  else M.

(** engines.py:67-74: G, F, h of the mixed LCP *)
Definition lcp_G (n nc : nat) (Jc Jf : mat T) : mat T := Jc ++ Jf ++ mzeros nc n.
Definition lcp_F (fd nc : nat) (E mu : mat T) : mat T :=
  let m := (nc + fd * nc + nc)%nat in
  let F0 := mzeros m m in
  let F1 := blk_put F0 nc (nc + fd * nc) E in
  let F2 := blk_put F1 (nc + fd * nc) 0 mu in
  blk_put F2 (nc + fd * nc) nc (mopp (mtr nc E)).
Definition lcp_h (fd nc : nat) (v : vec T) : vec T := v ++ vzeros (fd * nc + nc).

(** engines.py:51-74: the problem handed to the LCP solver *)
Definition contact_problem (w : world T) (u : vec T) : res (prob T) :=
  let n := (3 * length (w_bodies w))%nat in
  let nc := length (w_contacts w) in
  let fd := w_fric_dirs w in
  let v := vmul (mv (Jc w) (w_v w)) (restitutions w) in
  do jf <- Jf w;
  let je := Je w in
  Ok {| pr_Q := w_M w; pr_p := firstn n u;
        pr_G := lcp_G n nc (Jc w) jf; pr_h := lcp_h fd nc v;
        pr_A := je; pr_b := vzeros (w_num_constraints w);
        pr_F := lcp_F fd nc (world_E w) (mu w) |}.

(** engines.py:26-78 [solve_dynamics] *)
Definition solve_dynamics (max_iter : nat) (w : world T) (dt : T)
  : res (vec T * option (mat T)) :=
  let n := (3 * length (w_bodies w))%nat in
  let neq := w_num_constraints w in
  let je := Je w in
  do f <- world_apply_forces w (w_t w);
  let u0 := vadd (mv (w_M w) (w_v w)) (vscale dt f) in
  let u := if Nat.ltb 0 neq then u0 ++ vzeros neq else u0 in
  match w_contacts w with
  | [] =>
      let P := dyn_matrix n neq (w_M w) je in
      do ic <- match w_cache w with
               | None => do inv <- la_inv la P;
                         Ok (inv, if w_static_inverse w then Some inv else None)
               | Some inv => Ok (inv, Some inv)
               end;
      let '(inv, cache) := ic in
      Ok (firstn n (mv inv u), cache)
  | _ =>
      let nc := length (w_contacts w) in
      do pr <- contact_problem w u;
      do r <- lcp_forward la (mkOpts (ncst C_1em12) 3 max_iter) n
                          (nc + w_fric_dirs w * nc + nc) neq [pr];
      match r with
      | Some (x :: _, _) => Ok (vopp x, w_cache w)
      | _ => Err EType
      end
  end.

(** engines.py:80-116 [post_stabilization] *)
Definition post_stabilization (w : world T) : res (vec T) :=
  let n := (3 * length (w_bodies w))%nat in
  let neq := w_num_constraints w in
  let v := w_v w in
  let je := Je w in
  let ge := mv je v in
  match w_contacts w with
  | [] =>
      let u := vzeros n ++ ge in
      let P := dyn_matrix n neq (w_M w) je in
      do inv <- match w_cache w with None => la_inv la P | Some i => Ok i end;
      Ok (vopp (firstn n (mv inv u)))
  | _ =>
      let jc := Jc w in
      let nc := length (w_contacts w) in
      let gc := vadd (mv jc v) (vmul (mv jc v) (vopp (restitutions w))) in
      let pr := {| pr_Q := w_M w; pr_p := vzeros n; pr_G := jc; pr_h := gc;
                   pr_A := je; pr_b := ge; pr_F := mzeros nc nc |} in
      do r <- lcp_forward la default_opts n nc neq [pr];
      match r with
      | Some (x :: _, _) => Ok (vopp x)
      | _ => Err EType
      end
  end.

(** engines.py:17-23 [PdipmEngine] *)
Definition pdipm_engine (max_iter : nat) : engine T :=
  {| e_solve := solve_dynamics max_iter; e_post := post_stabilization |}.

End Engines.
