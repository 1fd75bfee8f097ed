(** Existence and uniqueness of solutions of strictly convex quadratic programs *)
From Coq Require Import List Arith ZArith Bool Reals Lra Lia.
From Verif Require Import Num Tensor Lapack LapackRef Pdipm RBase LinAlg LapackSpec LuFacts KktSpec PdipmSpec.
Import ListNotations.
Open Scope R_scope.

Lemma Forall2_len {A B} (P : A -> B -> Prop) l l' : Forall2 P l l' -> length l = length l'.
Proof. induction 1; cbn; congruence. Qed.
Lemma pd_solve n (M : mat R) p : wf n n M -> nonsingular n M -> length p = n -> exists x, length x = n /\ mv M x = p.
Proof.
  intros W NS Lp. destruct (inv_total _ ref_lapack_ok n M W NS) as [B EB]. destruct (inv_ok _ ref_lapack_ok n M B W EB) as [WB H].
  exists (mv B p). split; [rewrite mv_length; apply WB|]. now apply H.
Qed.

Section Qp.
Variables (n : nat) (M : mat R).
Hypothesis HM : symm n M.
Hypothesis HP : forall x, length x = n -> x <> vzeros n -> 0 < dot x (mv M x).

Lemma quad_zero x : length x = n -> dot x (mv M x) <= 0 -> x = vzeros n.
Proof. intros L H. destruct (list_eq_dec Req_EM_T x (vzeros n)) as [|N]; [auto|]. pose proof (HP x L N). lra. Qed.
Lemma quad_nonneg x : length x = n -> 0 <= dot x (mv M x).
Proof. intros L. destruct (Rle_lt_dec 0 (dot x (mv M x))) as [|H]; [auto|]. rewrite (quad_zero x L) by lra. rewrite dot_zeros_l. lra. Qed.
Lemma LM : length M = n. Proof. apply HM. Qed.

(** equality constraints only, consistent but possibly dependent *)
Lemma qp_eq (A : mat R) : forall m p b, wf m n A -> length p = n -> (exists x0, length x0 = n /\ mv A x0 = b) ->
  exists x y, length x = n /\ length y = m /\ mv M x = vadd p (vm n y A) /\ mv A x = b.
Proof.
  pose proof LM as HLM. induction A as [|a A IH]; intros m p b W Lp (x0 & L0 & E0).
  - destruct m; [|destruct W; discriminate]. destruct (pd_solve n M p) as (x & Lx & Ex); auto; [apply HM| |].
    + intros x Lx E. apply quad_zero; auto. rewrite E, dot_zeros_r. lra.
    + exists x, []. repeat split; auto. rewrite Ex, vm_nil. symmetry. now apply vadd_zeros_r.
  - destruct m; [destruct W; discriminate|]. apply wf_cons in W. destruct W as [La W]. destruct b as [|b0 b]; [discriminate|]. rewrite mv_cons in E0. injection E0 as Ea EA.
    destruct (IH m p b W Lp) as (x1 & y1 & L1 & Ly1 & E1 & F1); [eauto|].
    destruct (IH m a (vzeros m) W La) as (d & yd & Ld & Lyd & Ed & Fd). { exists (vzeros n). split; [apply vzeros_length|]. rewrite mv_zeros. f_equal. apply W. }
    assert (Q : dot a d = dot d (mv M d)). { rewrite Ed, dot_vadd_r by (rewrite vm_length; lia). rewrite (dot_comm d (vm _ _ _)), (dot_vm m n) by auto. rewrite Fd, dot_zeros_r, (dot_comm d a). ring. }
    destruct (Req_dec (dot a d) 0) as [Z|Z].
    + (* a depends on the rows of A *)
      assert (D0 : d = vzeros n) by (apply quad_zero; [exact Ld|lra]).
      assert (Ha : a = vopp (vm n yd A)). { rewrite D0, mv_zeros, HLM in Ed. vec_eq. apply (f_equal (fun z => vget z i)) in Ed. rewrite vget_zeros, vget_vadd in Ed by vlen. lra. }
      assert (B : dot a x1 = b0). { rewrite <- Ea, Ha, !dot_vopp_l, !(dot_vm m n) by auto. now rewrite F1, EA. }
      exists x1, (0 :: y1). split; [exact L1|]. split; [cbn; lia|]. split; [|rewrite mv_cons, B, F1; reflexivity].
      rewrite vm_cons by exact La. rewrite E1. f_equal. rewrite vscale_0, La. symmetry. apply vadd_zeros_l, vm_length.
    + set (tau := (b0 - dot a x1) / dot a d). exists (vadd x1 (vscale tau d)), (tau :: vadd y1 (vscale tau yd)).
      split; [vlen|]. split; [cbn; vlen|]. split.
      * rewrite vm_cons by exact La. rewrite mv_vadd, mv_vscale, E1, Ed by vlen. rewrite vm_vadd, vm_vscale by vlen. vec_eq. ring.
      * rewrite mv_cons, dot_vadd_r, dot_vscale_r by vlen. f_equal; [unfold tau; field; exact Z|]. rewrite mv_vadd, mv_vscale, F1, Fd by vlen. rewrite vscale_zeros. apply vadd_zeros_r. rewrite <- F1, mv_length. apply W.
Qed.

(** the solution of: minimise x.Mx/2 - p.x subject to A x = b and G x >= h *)
Record optimal (m k : nat) (p : vec R) (A : mat R) (b : vec R) (G : mat R) (h : vec R) (x y z : vec R) : Prop := {
  op_x : length x = n; op_y : length y = m; op_z : length z = k;
  op_bal : mv M x = vadd p (vadd (vm n z G) (vm n y A));
  op_eq : mv A x = b;
  op_ge : Forall2 Rle h (mv G x);
  op_pos : Forall (fun a => 0 <= a) z;
  op_compl : dot z (vsub (mv G x) h) = 0 }.
Lemma slack_nonneg k (G : mat R) h x : length G = k -> Forall2 Rle h (mv G x) -> Forall (fun a => 0 <= a) (vsub (mv G x) h).
Proof.
  intros _ H. remember (mv G x) as g. clear Heqg. induction H as [|a c h g Hac H IH]; [constructor|]. cbn. constructor; [rnum; lra|exact IH].
Qed.
Lemma dot_pos (x y : vec R) : Forall (fun a => 0 <= a) x -> Forall (fun a => 0 <= a) y -> 0 <= dot x y.
Proof.
  intros Hx. revert y. induction Hx as [|a x Ha Hx IH]; intros y Hy; [rewrite dot_nil_l; lra|]. destruct Hy as [|c y Hc Hy]; [rewrite dot_nil_r; lra|]. rewrite dot_cons. specialize (IH y Hy). nra.
Qed.
Lemma between (G : mat R) h x x' s : length x = length x' -> 0 <= s <= 1 -> Forall2 Rle h (mv G x) -> Forall2 Rle h (mv G x') ->
  Forall2 Rle h (mv G (vadd x (vscale s (vsub x' x)))).
Proof.
  intros L Hs. revert h. induction G as [|r G IH]; intros h H H'; [exact H|]. rewrite mv_cons in *. inversion H as [|a ? h' ? Ha Hr]; subst. inversion H' as [|? ? ? ? Ha' Hr']; subst.
  constructor; [|apply IH; auto]. rewrite dot_vadd_r, dot_vscale_r, dot_vsub_r by vlen. nra.
Qed.

Theorem qp_exists (G : mat R) : forall k m p A b h, wf m n A -> wf k n G -> length p = n ->
  (exists x0, length x0 = n /\ mv A x0 = b /\ Forall2 Rle h (mv G x0)) -> exists x y z, optimal m k p A b G h x y z.
Proof.
  pose proof LM as HLM. induction G as [|g G IH]; intros k m p A b h WA WG Lp (x0 & L0 & EA & EG).
  - destruct k; [|destruct WG; discriminate]. inversion EG; subst. destruct (qp_eq A m p (mv A x0) WA Lp) as (x & y & Lx & Ly & E & F); [eauto|].
    exists x, y, []. constructor; auto; try constructor. rewrite E, vm_nil. f_equal. symmetry. apply vadd_zeros_l, vm_length.
  - destruct k; [destruct WG; discriminate|]. apply wf_cons in WG. destruct WG as [Lg WG]. rewrite mv_cons in EG. inversion EG as [|h0 ? h' ? Hg HG]; subst.
    destruct (IH k m p A (mv A x0) h' WA WG Lp) as (x1 & y1 & z1 & O1); [eauto|].
    destruct (Rle_lt_dec h0 (dot g x1)) as [Hok|Hviol].
    + exists x1, y1, (0 :: z1). destruct O1 as [A1 A2 A3 A4 A5 A6 A7 A8]. constructor; auto.
      * cbn. now rewrite A3.
      * rewrite vm_cons by exact Lg. rewrite vscale_0, Lg, (vadd_zeros_l (vm n z1 G)) by apply vm_length. exact A4.
      * rewrite mv_cons. now constructor.
      * constructor; [lra|exact A7].
      * rewrite mv_cons. change (vsub (dot g x1 :: mv G x1) (h0 :: h')) with ((dot g x1 - h0) :: vsub (mv G x1) h'). rewrite dot_cons, A8. ring.
    + (* the constraint is violated: it must hold with equality *)
      destruct (IH k (S m) p (g :: A) (h0 :: mv A x0) h') as (x & y & z & O); auto.
      { apply wf_cons. auto. }
      { set (s := (h0 - dot g x1) / (dot g x0 - dot g x1)). assert (Ps : 0 <= s <= 1).
        { unfold s. assert (0 < dot g x0 - dot g x1) by lra. split; [apply Rle_mult_inv_pos; lra|]. apply Rmult_le_reg_r with (dot g x0 - dot g x1); [lra|]. unfold Rdiv. rewrite Rmult_assoc, Rinv_l by lra. lra. }
        destruct O1 as [A1 A2 A3 A4 A5 A6 A7 A8]. exists (vadd x1 (vscale s (vsub x0 x1))). split; [vlen|]. split; [|apply between; auto; lia].
        rewrite mv_cons, dot_vadd_r, dot_vscale_r, dot_vsub_r by vlen. rewrite mv_vadd, mv_vscale, mv_vsub, A5 by vlen. f_equal; [unfold s; field; lra|].
        vec_eq. ring. }
      destruct O1 as [A1 A2 A3 A4 A5 A6 A7 A8]. destruct O as [B1 B2 B3 B4 B5 B6 B7 B8]. destruct y as [|mu y]; [discriminate|]. rewrite mv_cons in B5. injection B5 as Bg BA. rewrite vm_cons in B4 by exact Lg.
      assert (Ly : length y = m) by (cbn in B2; lia).
      exists x, y, (mu :: z).
      assert (Pmu : 0 <= mu).
      { (* (x1 - x).M(x1 - x) = ... *)
        set (d := vsub x1 x). assert (Ld : length d = n) by (unfold d; vlen).
        assert (DA : mv A d = vzeros m). { unfold d. rewrite mv_vsub, A5, BA by vlen. assert (LA : length A = m) by apply WA. vec_eq. rewrite ?vget_zeros. ring. }
        assert (E1 : dot d (mv M x1) = dot d p + dot z1 (mv G d)). { rewrite A4. rewrite !dot_vadd_r by vlen. rewrite !(dot_comm d (vm _ _ _)), (dot_vm k n), (dot_vm m n) by auto. rewrite DA, dot_zeros_r. ring. }
        assert (E2 : dot d (mv M x) = dot d p + dot z (mv G d) + mu * dot g d).
        { rewrite B4. rewrite !dot_vadd_r, dot_vscale_r by vlen. rewrite !(dot_comm d (vm _ _ _)), (dot_vm k n), (dot_vm m n) by auto. rewrite DA, dot_zeros_r, (dot_comm d g). ring. }
        assert (E3 : dot d (mv M d) = dot d (mv M x1) - dot d (mv M x)) by (unfold d at 2; rewrite mv_vsub, dot_vsub_r by vlen; ring).
        assert (Lh : length h' = k). { apply Forall2_len in HG. rewrite mv_length in HG. destruct WG as [WG1 _]. unfold mat, vec in *. congruence. }
        assert (Lgk : length G = k) by apply WG.
        assert (Gd : mv G d = vsub (vsub (mv G x1) h') (vsub (mv G x) h')). { unfold d. rewrite mv_vsub by vlen. vec_eq. ring. }
        assert (D1 : dot z1 (mv G d) = - dot z1 (vsub (mv G x) h')) by (rewrite Gd, dot_vsub_r, A8 by vlen; ring).
        assert (D2 : dot z (mv G d) = dot z (vsub (mv G x1) h')) by (rewrite Gd, dot_vsub_r, B8 by vlen; ring).
        rewrite D1 in E1. rewrite D2 in E2.
        pose proof (dot_pos z1 _ A7 (slack_nonneg k G h' x Lgk B6)) as P1. pose proof (dot_pos z _ B7 (slack_nonneg k G h' x1 Lgk A6)) as P2.
        assert (Eg : dot g d = dot g x1 - h0) by (unfold d; rewrite dot_vsub_r, Bg by vlen; ring).
        pose proof (quad_nonneg d Ld) as P3. rewrite Eg in E2.
        destruct (Rle_lt_dec 0 mu) as [|Nmu]; [auto|]. exfalso. nra. }
      constructor; auto.
      * cbn. now rewrite B3.
      * rewrite vm_cons by exact Lg. rewrite B4. vec_eq. ring.
      * rewrite mv_cons, Bg. constructor; [lra|exact B6].
      * rewrite mv_cons, Bg. change (vsub (h0 :: mv G x) (h0 :: h')) with ((h0 - h0) :: vsub (mv G x) h'). rewrite dot_cons, B8. ring.
Qed.
End Qp.
