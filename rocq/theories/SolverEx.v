(** A run of the solver whose directions have no zero component (non-vacuity of C41) *)
From Coq Require Import List Arith ZArith Lia Bool Reals Lra Psatz.
From Verif Require Import Num Tensor Lapack LapackRef LapackSpec Pdipm Lcp KktSpec PdipmSpec RBase ResFacts LinAlg PivFacts LuFacts KktFacts
     KktFactor KktTotal PdipmFacts PdipmLoop SolverFacts.
Import ListNotations.
Open Scope R_scope.

(** min x^2/2 - 2x  with  x <= 1 *)
Definition ex_one : prob R := mkProb [[1]] [-2] [[1]] [1] [] [] [[0]].
Lemma ex_one_sized : sized 1 1 0 ex_one.
Proof.
  constructor; try reflexivity. constructor; [split; [|reflexivity]| | |]; (split; [reflexivity|repeat constructor]).
Qed.
Lemma ex_one_posed : well_posed 1 1 0 (pr_Q ex_one) (pr_G ex_one) (pr_F ex_one) (pr_A ex_one).
Proof.
  constructor.
  - intros [|a [|b x]] L N; try discriminate. unfold ex_one, dot, mv, vmul; cbn. rnum. unfold dot, vmul; cbn. rnum.
    assert (a <> 0) by (intros ->; apply N; reflexivity). assert (0 < a * a) by nra. lra.
  - intros [|a y] L E; try discriminate. reflexivity.
  - intros [|a [|b z]] L; try discriminate. unfold ex_one, dot, mv, vmul; cbn. rnum. unfold dot, vmul; cbn. rnum. lra.
Qed.

Lemma ex_one_kkt d rx rs rz dx ds dz dy :
  kkt_solution 1 1 0 (pr_Q ex_one) (pr_G ex_one) (pr_F ex_one) (pr_A ex_one) [d] [rx] [rs] [rz] [] dx ds dz dy ->
  exists x s z, dx = [x] /\ ds = [s] /\ dz = [z] /\ dy = [] /\ x + z = - rx /\ d * s + z = - rs /\ x + s = - rz.
Proof.
  intros [L1 L2 L3 L4 K1 K2 K3 _]. destruct dx as [|x [|? ?]]; try discriminate. destruct ds as [|s [|? ?]]; try discriminate.
  destruct dz as [|z [|? ?]]; try discriminate. destruct dy as [|? ?]; try discriminate. exists x, s, z. repeat (split; [reflexivity|]).
  unfold ex_one, vm, mv, mtr, dot, vmul, vadd, vsub, vopp in *. cbn in *. unfold dot, vmul in *. cbn in *. rnum.
  injection K1 as K1. injection K2 as K2. injection K3 as K3. lra.
Qed.

Section Run.
Variables (la : lapack R) (HL : lapack_ok la).

Lemma ex_one_start e QL SL Rm : kkt_state la 1 1 0 (pr_Q ex_one) (pr_G ex_one) (pr_F ex_one) (pr_A ex_one) QL SL Rm ->
  init_elt la 1 1 0 ex_one QL SL Rm = Ok e -> e_pr e = ex_one /\ e_it e = mkIter [3/2] [1] [1/2] [].
Proof.
  intros Hst H. pose proof ex_one_sized as Hsz. unfold init_elt in H. cbv zeta in H. bind_inv H as S1 ES.
  destruct (state_factor la 1 1 0 _ _ _ _ _ _ _ _ _ HL (sz_mat _ _ _ _ Hsz) Hst (vones_length 1) ES) as [_ HF].
  pose proof Hst as (HQ & LA & HA & _).
  pose proof (solve_kkt_ok la HL 1 1 0 _ _ _ _ (sz_mat _ _ _ _ Hsz) _ HQ LA HA S1 (vones 1) (pr_p ex_one) (vzeros 1) (vopp (pr_h ex_one)) (vopp (pr_b ex_one)) HF (vones_length 1)) as K.
  destruct (solve_kkt _ _ _ _ _ _ _ _ _ _ _ _) as [[[x s0] z0] y]. injection H as <-. split; [reflexivity|]. cbn [e_it].
  destruct (ex_one_kkt 1 (-2) 0 (- (1)) x s0 z0 y) as (a & b & c & -> & -> & -> & -> & K1 & K2 & K3).
  { apply K; try reflexivity. intros [|i] Hi; [|lia]. cbn. rnum. lra. }
  assert (b = -1/2) by lra. assert (c = 1/2) by lra. assert (a = 3/2) by lra. subst. f_equal.
  - unfold shift_pos. cbn [vmin fold_left map]. rnum. destruct (Rleb_spec (-1/2) 0); [|lra]. f_equal. lra.
  - unfold shift_pos. cbn [vmin fold_left map]. rnum. destruct (Rleb_spec (1/2) 0); [lra|reflexivity].
Qed.

Lemma ex_one_dirs e : factored la 1 1 0 e -> e_pr e = ex_one -> e_it e = mkIter [3/2] [1] [1/2] [] -> moving la 1 1 0 [e].
Proof.
  intros HF Ep Ei. assert (Hn : (0 < 1)%nat) by lia.
  assert (Ed : d_of e = [1/2]). { unfold d_of, vdiv. rewrite Ei. cbn. f_equal. rnum. field. }
  pose proof (aff_dir_ok la HL 1 1 0 Hn e HF) as KA. rewrite Ed, Ep, Ei in KA.
  destruct (aff_dir la 1 0 e) as [[[ax as_] az] ay] eqn:EA.
  replace (stationarity 1 ex_one (mkIter [3/2] [1] [1/2] [])) with [0] in KA.
  2:{ unfold stationarity, ex_one, vm, mv, mtr, dot, vmul, vadd. cbn. unfold dot, vmul; cbn. f_equal. rnum. lra. }
  replace (inequality ex_one (mkIter [3/2] [1] [1/2] [])) with [3/2] in KA.
  2:{ unfold inequality, ex_one, mv, dot, vmul, vadd, vsub. cbn. unfold dot, vmul; cbn. f_equal. rnum. lra. }
  destruct (ex_one_kkt _ _ _ _ _ _ _ _ KA) as (x & s & z & -> & -> & -> & -> & K1 & K2 & K3).
  assert (x = -1/6) by lra. assert (s = -4/3) by lra. assert (z = 1/6) by lra. subst x s z. clear KA K1 K2 K3.
  intros e' dx ds dz dy Hin. unfold batch_dirs, batch_affs in Hin. cbn [map app] in Hin. rewrite EA in Hin. destruct Hin as [Hin|Hin].
  - injection Hin as <- <- <- <- <-. split; constructor; constructor || lra.
  - unfold alphas in Hin. cbn [map] in Hin. rewrite Ei in Hin. cbn [i_s i_z] in Hin.
    assert (G1 : get_step [([1/2], [1/6])] = [1]).
    { unfold get_step, step_cap, step1, ratios. cbn [map flat_map app vmap2 map2 vmax vmin fold_left]. rnum.
      destruct (Rltb_spec 1 (- (1/2) / (1/6))) as [X|X]; [exfalso; revert X; replace (- (1/2) / (1/6)) with (-3) by field; lra|].
      destruct (Rltb_spec 0 (1/6)); [reflexivity|lra]. }
    assert (G2 : get_step [([1], [-4/3])] = [3/4]).
    { unfold get_step, step_cap, step1, ratios. cbn [map flat_map app vmap2 map2 vmax vmin fold_left]. rnum.
      destruct (Rltb_spec 0 (-4/3)); [lra|]. f_equal. field. }
    unfold vec in *. rewrite G1, G2 in Hin. cbn [map2] in Hin. unfold nmin in Hin. rnum.
    destruct (Rltb_spec (3/4) 1); [|lra]. destruct (Rltb_spec 1 (3/4)); [lra|].
    destruct Hin as [Hin|[]]. pose proof (f_equal snd Hin) as Hd. cbn [snd] in Hd. clear Hin.
    assert (EC : cor_dir la 1 1 0 e ([-1/6], [-4/3], [1/6], []) (3/4) =
      solve_kkt la 1 0 (e_QLU e) (d_of e) (pr_G (e_pr e)) (pr_A (e_pr e)) (e_SLU e) (vzeros 1) [-2/9] (vzeros 1) (vzeros 0)).
    { unfold cor_dir. cbv zeta. f_equal. unfold vdiv, mu_of, dot, vmul, vscale, vadd. rewrite Ei. cbn. rnum. f_equal.
      rewrite Rabs_pos_eq by lra. field. }
    rewrite EC in Hd. clear EC.
    pose proof (solve_elt la HL 1 1 0 Hn e (vzeros 1) [-2/9] (vzeros 1) (vzeros 0) HF eq_refl eq_refl eq_refl eq_refl) as KC.
    rewrite Ed, Ep in *. destruct (solve_kkt _ _ _ _ _ _ _ _ _ _ _ _) as [[[cx cs] cz] cy].
    destruct (ex_one_kkt _ _ _ _ _ _ _ _ KC) as (x & s & z & -> & -> & -> & -> & K1 & K2 & K3).
    assert (z = 4/27) by lra. assert (s = 4/27) by lra. subst z s. unfold dirs_add, vadd in Hd. cbn [vmap2 map2] in Hd. rnum.
    injection Hd as <- <- <- <-. split; constructor; constructor || lra.
Qed.

Lemma ex_one_moving : no_zero_direction la 1 1 0 [ex_one] 1.
Proof.
  intros k es0 es es1 Hk E0 Ev Ef. assert (k = 0%nat) by lia. subst k. cbn in Ev. injection Ev as <-.
  pose proof E0 as E. unfold start in E. bind_inv E as fs Efs. cbn [mapM] in Efs. bind_inv Efs as f Ef1. injection Efs as <-. destruct f as [[QL SL] Rm].
  cbn [combine mapM] in E. bind_inv E as e Ee. injection E as <-.
  pose proof (pre_factor_ok la 1 1 0 _ _ _ _ _ _ _ HL (sz_mat _ _ _ _ ex_one_sized) Ef1) as Hst.
  destruct (ex_one_start _ _ _ _ Hst Ee) as [P1 P2].
  pose proof (init_elt_ok la HL 1 1 0 ex_one QL SL Rm e ex_one_sized Hst Ee) as (OK & _).
  pose proof (factor_batch_ok la HL 1 1 0 ltac:(lia) [e] es1 (Forall_cons _ OK (Forall_nil _)) Ef) as F2.
  inversion F2 as [|? e1 ? l' (F & I & P) F2']; subst. inversion F2'; subst. apply ex_one_dirs; congruence.
Qed.
End Run.
