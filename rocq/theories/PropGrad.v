(** C45: the gradients of the LCP layer *)
From Coq Require Import List Arith ZArith Bool Floats Reals Lra.
From Verif Require Import Num Tensor Lapack LapackRef LapackSpec LuFacts Pdipm Lcp Engines FloatEx LinAlg KktSpec PdipmSpec SolverFacts SolverEx GradSpec GradFacts GradCurve.
Import ListNotations.
Open Scope R_scope.

(** For a symmetric F (the F = 0 of a quadratic program, of post-stabilisation): along every curve
    of solutions through a returned point the loss changes at the rate that the chain rule makes
    of the returned gradients. *)
Theorem C45_symmetric la (HL : lapack_ok la) o nz nineq neq ps xs sv dls gs i g dl p0 it0 pr it r dpr dit :
  Forall (sized nz nineq neq) ps -> (0 < lo_lim o)%nat -> lcp_forward la o nz nineq neq ps = Ok (Some (xs, sv)) -> lcp_backward la sv dls = Ok gs ->
  nth_error gs i = Some g -> nth_error dls i = Some dl -> length dl = nz -> nth_error ps i = Some p0 -> nth_error (sv_best sv) i = Some it0 ->
  symm nineq (pr_F p0) ->
  solution_curve nz nineq neq pr it r -> pr 0 = p0 -> it 0 = it0 -> data_rate nz nineq neq pr dpr -> point_rate nz nineq neq it dit ->
  derivable_pt_lim (fun t => dot dl (i_x (it t))) 0 (chain g dpr).
Proof.
  intros Hsz Hlim HF HB Hg Hdl Ldl Hp Hit HS. destruct (lcp_forward_start _ _ _ _ _ _ _ HF) as (Hn & _).
  exact (backward_derivative_symmetric la HL nz nineq neq Hn o ps xs sv Hsz Hlim HF dls gs i g dl p0 it0 pr it r dpr dit HB Hg Hdl Ldl Hp Hit HS).
Qed.
Print Assumptions C45_symmetric.

(** For every F: what the gradients miss. *)
Theorem C45_error la (HL : lapack_ok la) o nz nineq neq ps xs sv dls gs i g dl p0 it0 pr it r dpr dit :
  Forall (sized nz nineq neq) ps -> (0 < lo_lim o)%nat -> lcp_forward la o nz nineq neq ps = Ok (Some (xs, sv)) -> lcp_backward la sv dls = Ok gs ->
  nth_error gs i = Some g -> nth_error dls i = Some dl -> length dl = nz -> nth_error ps i = Some p0 -> nth_error (sv_best sv) i = Some it0 ->
  solution_curve nz nineq neq pr it r -> pr 0 = p0 -> it 0 = it0 -> data_rate nz nineq neq pr dpr -> point_rate nz nineq neq it dit ->
  let dlam := vopp (g_h g) in
  derivable_pt_lim (fun t => dot dl (i_x (it t))) 0 (chain g dpr + (dot (i_z dit) (mv (pr_F p0) dlam) - dot dlam (mv (pr_F p0) (i_z dit)))).
Proof.
  intros Hsz Hlim HF HB Hg Hdl Ldl Hp Hit. destruct (lcp_forward_start _ _ _ _ _ _ _ HF) as (Hn & _).
  exact (backward_derivative la HL nz nineq neq Hn o ps xs sv Hsz Hlim HF dls gs i g dl p0 it0 pr it r dpr dit HB Hg Hdl Ldl Hp Hit).
Qed.
Print Assumptions C45_error.

(** ... so they are right along every curve exactly when F and its transpose agree on g_h *)
Theorem C45_right_iff la (HL : lapack_ok la) o nz nineq neq ps xs sv dls gs i g dl p0 it0 :
  Forall (sized nz nineq neq) ps -> (0 < lo_lim o)%nat -> lcp_forward la o nz nineq neq ps = Ok (Some (xs, sv)) -> lcp_backward la sv dls = Ok gs ->
  nth_error gs i = Some g -> nth_error dls i = Some dl -> length dl = nz -> nth_error ps i = Some p0 -> nth_error (sv_best sv) i = Some it0 ->
  ((forall pr it r dpr dit, solution_curve nz nineq neq pr it r -> pr 0 = p0 -> it 0 = it0 -> data_rate nz nineq neq pr dpr -> point_rate nz nineq neq it dit ->
      derivable_pt_lim (fun t => dot dl (i_x (it t))) 0 (chain g dpr)) <->
   (forall w, length w = nineq -> dot w (mv (pr_F p0) (g_h g)) = dot (g_h g) (mv (pr_F p0) w))).
Proof. exact (fun Hsz Hlim HF HB Hg Hdl Ldl Hp Hit => gradient_exact la HL nz nineq neq o ps xs sv Hsz Hlim HF dls gs i g dl p0 it0 HB Hg Hdl Ldl Hp Hit). Qed.
Print Assumptions C45_right_iff.

(** on well-posed problems the backward pass returns *)
Theorem C45_returns la (HL : lapack_ok la) o nz nineq neq ps xs sv dls :
  Forall (sized nz nineq neq) ps -> (0 < lo_lim o)%nat -> lcp_forward la o nz nineq neq ps = Ok (Some (xs, sv)) ->
  Forall (fun pr => well_posed nz nineq neq (pr_Q pr) (pr_G pr) (pr_F pr) (pr_A pr)) ps -> length dls = length ps ->
  exists gs, lcp_backward la sv dls = Ok gs /\ length gs = length ps.
Proof.
  intros Hsz Hlim HF. destruct (lcp_forward_start _ _ _ _ _ _ _ HF) as (Hn & _).
  exact (backward_total la HL nz nineq neq Hn o ps xs sv Hsz Hlim HF dls).
Qed.
Print Assumptions C45_returns.

(** Finding: a well-posed problem with an antisymmetric F.  Forward and backward return; along a
    curve of solutions x does not move at all, but the gradients predict that it does. *)
Theorem C45_asymmetric_refuted : exists (nz nineq neq : nat) (p0 : prob R) (dl : vec R),
  sized nz nineq neq p0 /\ well_posed nz nineq neq (pr_Q p0) (pr_G p0) (pr_F p0) (pr_A p0) /\ length dl = nz /\
  forall la o, lapack_ok la -> (0 < lo_lim o)%nat -> (0 < lo_max_iter o)%nat ->
  exists xs sv g, lcp_forward la o nz nineq neq [p0] = Ok (Some (xs, sv)) /\ lcp_backward la sv [dl] = Ok [g] /\
  exists it0 pr it r dpr dit, nth_error (sv_best sv) 0 = Some it0 /\ solution_curve nz nineq neq pr it r /\ pr 0 = p0 /\ it 0 = it0 /\
    data_rate nz nineq neq pr dpr /\ point_rate nz nineq neq it dit /\ (forall t, i_x (it t) = i_x it0) /\ chain g dpr <> 0.
Proof.
  exists 1%nat, 2%nat, 0%nat, skew, [1]. split; [exact skew_sized|]. split; [exact skew_posed|]. split; [reflexivity|].
  intros la o HL Hl Hm. destruct (skew_runs la o HL Hl Hm) as (xs & sv & g & HF & HB). exists xs, sv, g. split; [exact HF|]. split; [exact HB|].
  exact (skew_wrong la o xs sv g HL Hl HF HB).
Qed.
Print Assumptions C45_asymmetric_refuted.

(** Finding, on the problem of one body sliding on a floor (engine layout: normal impulse, two
    friction impulses, cone variable; mass 1, mu = 0.5, p = M v = (0, 2, -1), so that the new
    velocity is v_x = 2 - mu = 1.5, v_y = 0, and x = -v).  Loss x_x: raising mu by 2^-10 raises x_x
    by about 2^-10; the gradient of mu has the wrong sign.  Loss x_y: x_y = 0 whatever p_x is, but
    its gradient is about -mu. *)
Definition sliding (mu px : float) : prob float :=
  (mkProb (meye 3) [0; px; -1] (lcp_G 3 1 [[0; 0; 1]] [[0; 1; 0]; [0; -1; 0]]) (lcp_h 2 1 [0]) [] [] (lcp_F 2 1 [[1]; [1]] [[mu]]))%float.
Definition slide_x (mu px : float) : res (vec float) :=
  do r <- lcp_forward ref_lapack default_opts 3 4 0 [sliding mu px];
  match r with Some (x :: _, _) => Ok x | _ => Err EType end.
Definition slide_grad (mu px : float) (dl : vec float) : res (grads float) :=
  do r <- lcp_forward ref_lapack default_opts 3 4 0 [sliding mu px];
  match r with
  | Some (_, sv) => do gs <- lcp_backward ref_lapack sv [dl]; match gs with g :: _ => Ok g | [] => Err EType end
  | None => Err EType
  end.
Theorem C45_friction_refuted :
  (exists r, (do x1 <- slide_x 0.5 2; do x2 <- slide_x (0.5 + 0x1p-10) 2; do g <- slide_grad 0.5 2 [0; 1; 0]; Ok (vget x1 1, vget x2 1, mget (g_F g) 3 0))%float = Ok r /\
     ((fst (fst r) + 0x1p-11 <? snd (fst r)) && (snd r <? -0.875))%bool%float = true) /\
  (exists r, (do x1 <- slide_x 0.5 2; do x2 <- slide_x 0.5 (2 + 0x1p-10); do g <- slide_grad 0.5 2 [0; 0; 1]; Ok (vget x1 2, vget x2 2, vget (g_p g) 1))%float = Ok r /\
     ((abs (snd (fst r) - fst (fst r)) <? 0x1p-30) && (snd r <? -0.4375))%bool%float = true).
Proof. split; apply res_check_ok; vm_compute; reflexivity. Qed.
Print Assumptions C45_friction_refuted.

(** a case of the theorems: min x^2/2 - 2x with x <= 1, a loss x, and a curve along which x moves *)
Example C45_case : exists xs sv g it0 pr it r dpr dit,
  lcp_forward ref_lapack default_opts 1 1 0 [ex_one] = Ok (Some (xs, sv)) /\ lcp_backward ref_lapack sv [[1]] = Ok [g] /\
  nth_error (sv_best sv) 0 = Some it0 /\ symm 1 (pr_F ex_one) /\ solution_curve 1 1 0 pr it r /\ pr 0 = ex_one /\ it 0 = it0 /\
  data_rate 1 1 0 pr dpr /\ point_rate 1 1 0 it dit /\ i_x dit = [1] /\ i_z dit = [1].
Proof.
  pose proof ref_lapack_ok as HL. assert (Hsz : Forall (sized 1 1 0) [ex_one]) by (constructor; [exact ex_one_sized|constructor]). assert (Hw : Forall (posed 1 1 0) [ex_one]) by (constructor; [exact ex_one_posed|constructor]).
  destruct (lcp_forward_total ref_lapack HL 1 1 0 Nat.lt_0_1 default_opts [ex_one] (Nat.lt_0_succ 9) Hsz Hw) as (xs & sv & HF).
  destruct (backward_total ref_lapack HL 1 1 0 Nat.lt_0_1 default_opts [ex_one] xs sv Hsz (Nat.lt_0_succ 2) HF [[1]] Hw eq_refl) as (gs & HB & Lg). destruct gs as [|g [|? ?]]; try discriminate.
  destruct (backward_at ref_lapack HL 1 1 0 Nat.lt_0_1 default_opts [ex_one] xs sv Hsz HF [[1]] [g] 0 g HB eq_refl) as (p1 & e & it0 & dl1 & Ep & He & Eit & Edl & Eb).
  destruct (forward_returned ref_lapack HL default_opts 1 1 0 [ex_one] xs sv Hsz (Nat.lt_0_succ 2) HF 0 it0 Eit) as (p2 & Ep2 & Pt & Int & _).
  destruct (c_0 1 1 0 ex_one it0 [1] [1] ex_one_sized Pt Int eq_refl eq_refl) as [C1 C2].
  exists xs, sv, g, it0, (c_pr 1 ex_one it0 [1] [1]), (c_it it0 [1] [1]), (c_r it0 [1]), (c_dpr 1 1 0 ex_one it0 [1] [1]), (c_dit 0 it0 [1] [1]).
  split; [exact HF|]. split; [exact HB|]. split; [exact Eit|]. split; [split; [split; [reflexivity|repeat constructor]|reflexivity]|].
  split; [exact (c_curve 1 1 0 ex_one it0 [1] [1] ex_one_sized Pt Int eq_refl eq_refl)|]. split; [exact C1|]. split; [exact C2|].
  split; [exact (c_data_rate 1 1 0 ex_one it0 [1] [1] ex_one_sized Pt Int eq_refl eq_refl)|]. split; [exact (c_point_rate 1 1 0 ex_one it0 [1] [1] ex_one_sized Pt Int eq_refl eq_refl)|].
  split; reflexivity.
Qed.
