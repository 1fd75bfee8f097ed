(** Packed LU factorisations; Gaussian elimination meets the LAPACK contract *)
From Coq Require Import List Arith ZArith Bool Reals Lra Lia.
From Verif Require Import Num Tensor Lapack RBase LinAlg LapackSpec LapackRef ResFacts PivFacts.
Import ListNotations.
Open Scope R_scope.

Lemma square_S n (f : nat -> nat -> R) :
  square (S n) f = (f O O :: map (fun j => f O (S j)) (seq 0 n)) :: map (fun i => f (S i) O :: map (fun j => f (S i) (S j)) (seq 0 n)) (seq 0 n).
Proof. unfold square. cbn [seq map]. rewrite <- !seq_shift, !map_map. f_equal. apply map_ext. intros i. now rewrite map_map. Qed.
Lemma square_length n f : length (square n f) = n.
Proof. unfold square. now rewrite map_length, seq_length. Qed.
Lemma wf_square n f : wf n n (square n f).
Proof. apply wf_map_seq. intros i Hi. now rewrite map_length, seq_length. Qed.
Lemma square_ext n f g : (forall i j, (i < n)%nat -> (j < n)%nat -> f i j = g i j) -> square n f = square n g.
Proof. intros H. unfold square. apply map_ext_in. intros i Hi. apply map_ext_in. intros j Hj. apply in_seq in Hi, Hj. apply H; lia. Qed.
Lemma lu_mul_length n f y : length (lu_mul n f y) = n.
Proof. unfold lu_mul. rewrite mv_length. apply square_length. Qed.

Section Cons.
Variables (n : nat) (u : R) (r : vecR) (rows : matR).
Let D := (u :: r) :: rows.
Hypothesis HD : wf (S n) (S n) D.
Lemma D_r : length r = n.
Proof. apply wf_cons in HD. destruct HD as [H _]. now injection H. Qed.
Lemma D_rows : wf n (S n) rows.
Proof. apply wf_cons in HD. apply HD. Qed.
Lemma mget_D_S i j : mget D (S i) (S j) = mget (map (@tl R) rows) i j.
Proof.
  unfold mget, D. cbn [nth]. pose proof (map_nth (@tl R) rows [] i) as E. cbn [tl] in E. rewrite E. destruct (nth i rows []); unfold vget; cbn; auto. destruct j; reflexivity.
Qed.
Lemma mget_D_0 i : mget D (S i) 0 = nth i (map (hd 0) rows) 0.
Proof. unfold mget, D. cbn [nth]. change (nth i (map (hd 0) rows) 0) with (nth i (map (hd 0) rows) (hd 0 [])). rewrite map_nth. destruct (nth i rows []); reflexivity. Qed.
Lemma upper_cons y0 ys : length ys = n ->
  mv (square (S n) (upper D)) (y0 :: ys) = (u * y0 + dot r ys) :: mv (square n (upper (map (@tl R) rows))) ys.
Proof.
  intros Hy. rewrite square_S, mv_cons. f_equal.
  - change (upper D 0 0) with u. rewrite dot_cons. f_equal. f_equal.
    apply vext; [rewrite map_length, seq_length; symmetry; apply D_r|]. intros i Hi. rewrite map_length, seq_length in Hi. rewrite vget_seq by auto. reflexivity.
  - unfold mv, square. rewrite !map_map. apply map_ext. intros i. unfold upper at 1. cbn [Nat.leb]. rewrite dot_cons.
    transitivity (dot (map (fun j => upper D (S i) (S j)) (seq 0 n)) ys); [change (n0) with 0; ring|]. f_equal. apply map_ext. intros j. unfold upper. cbn [Nat.leb]. now rewrite mget_D_S.
Qed.
Lemma lower_cons y0 ys : length ys = n ->
  mv (square (S n) (lower D)) (y0 :: ys) = y0 :: vadd (vscale y0 (map (hd 0) rows)) (mv (square n (lower (map (@tl R) rows))) ys).
Proof.
  intros Hy. rewrite square_S, mv_cons. f_equal.
  - rewrite dot_cons. unfold lower at 1. cbn [Nat.ltb Nat.leb Nat.eqb].
    assert (Z : dot (map (fun j => lower D 0 (S j)) (seq 0 n)) ys = 0).
    { rewrite (map_ext (fun j => lower D 0 (S j)) (fun _ => 0)) by reflexivity. clear. generalize (seq 0 n). intros l. revert ys. induction l; intros [|b ys]; cbn [map]; try apply dot_nil_l; try apply dot_nil_r. rewrite dot_cons, IHl. ring. }
    rewrite Z. ring.
  - apply vext.
    + pose proof (wf_length _ _ _ D_rows). rewrite mv_length, vadd_length, vscale_length, !map_length, mv_length, square_length, seq_length. lia.
    + intros i Hi. rewrite mv_length, map_length, seq_length in Hi. pose proof (wf_length _ _ _ D_rows) as LR.
      rewrite vget_mv by (rewrite map_length, seq_length; auto). rewrite nth_map_seq by auto. rewrite dot_cons.
      rewrite vget_vadd by (rewrite ?vscale_length, ?map_length, ?mv_length, ?square_length; lia). rewrite vget_vscale, vget_mv by (rewrite square_length; auto).
      unfold square. rewrite nth_map_seq by auto. unfold lower at 1. cbn [Nat.ltb Nat.leb]. rewrite mget_D_0. unfold vget. change n0 with 0.
      rewrite Rmult_comm. f_equal. f_equal. apply map_ext. intros j. unfold lower. cbn [Nat.eqb]. now rewrite mget_D_S.
Qed.
Lemma lu_mul_cons piv piv' y0 ys : length ys = n ->
  lu_mul (S n) (D, piv) (y0 :: ys) =
  (u * y0 + dot r ys) :: vadd (vscale (u * y0 + dot r ys) (map (hd 0) rows)) (lu_mul n (map (@tl R) rows, piv') ys).
Proof. intros Hy. unfold lu_mul. cbn [fst]. rewrite upper_cons, lower_cons by (auto; now rewrite mv_length, square_length). reflexivity. Qed.
Lemma wf_tl : wf n n (map (@tl R) rows).
Proof.
  destruct D_rows as [L F]. split; [now rewrite map_length|]. apply Forall_forall. intros x Hx. apply in_map_iff in Hx. destruct Hx as (y & <- & Hy).
  rewrite Forall_forall in F. specialize (F y Hy). destruct y; cbn in *; lia.
Qed.
End Cons.

Lemma wf_S_inv n (D : matR) : wf (S n) (S n) D -> exists u r rows, D = (u :: r) :: rows.
Proof. intros [L F]. destruct D as [|[|u r] rows]; [discriminate| |eauto]. inversion F; subst. discriminate. Qed.

Definition udiag (n : nat) (D : matR) : Prop := forall i, (i < n)%nat -> mget D i i <> 0.
Lemma udiag_cons n u r rows : udiag (S n) ((u :: r) :: rows) -> u <> 0 /\ udiag n (map (@tl R) rows).
Proof. intros H. split; [apply (H 0%nat); lia|]. intros i Hi E. apply (H (S i)); [lia|]. now rewrite mget_D_S. Qed.
(** L U is injective ... *)
Lemma lu_mul_inj n : forall D piv x y, wf n n D -> udiag n D -> length x = n -> length y = n -> lu_mul n (D, piv) x = lu_mul n (D, piv) y -> x = y.
Proof.
  induction n as [|n IH]; intros D piv x y HD Hu Hx Hy E.
  - destruct x, y; cbn in *; auto; lia.
  - destruct (wf_S_inv _ _ HD) as (u & r & rows & ->). destruct (udiag_cons _ _ _ _ Hu) as [U Hu'].
    destruct x as [|x0 x]; [discriminate|]. destruct y as [|y0 y]; [discriminate|]. injection Hx as Hx. injection Hy as Hy.
    rewrite !(lu_mul_cons n u r rows HD piv piv) in E by auto. injection E as E0 E1. rewrite E0 in E1.
    apply vadd_inj_l in E1.
    + apply IH in E1; auto; [|now apply (wf_tl n u r)]. subst y. f_equal. nra.
    + pose proof (wf_length _ _ _ (D_rows _ _ _ _ HD)). rewrite lu_mul_length, vscale_length, map_length. lia.
    + pose proof (wf_length _ _ _ (D_rows _ _ _ _ HD)). rewrite lu_mul_length, vscale_length, map_length. lia.
Qed.
(** ... and substitution inverts it *)
Lemma ref_solve_ok n : forall D piv b, wf n n D -> udiag n D -> length b = n ->
  length (ref_solve D n b) = n /\ lu_mul n (D, piv) (ref_solve D n b) = b.
Proof.
  induction n as [|n IH]; intros D piv b HD Hu Hb.
  - destruct b; [|discriminate]. split; reflexivity.
  - destruct (wf_S_inv _ _ HD) as (u & r & rows & ->). destruct (udiag_cons _ _ _ _ Hu) as [U Hu'].
    destruct b as [|b0 bs]; [discriminate|]. injection Hb as Hb. cbn [ref_solve].
    pose proof (wf_length _ _ _ (D_rows _ _ _ _ HD)) as LR. set (bs' := map2 _ rows bs).
    assert (L' : length bs' = n) by (unfold bs'; rewrite map2_length; lia).
    destruct (IH (map (@tl R) rows) piv bs' (wf_tl _ _ _ _ HD) Hu' L') as [L E]. set (x' := ref_solve (map (@tl R) rows) n bs') in *.
    split; [cbn; now rewrite L|]. rewrite (lu_mul_cons n u r rows HD piv piv) by auto. rewrite E.
    assert (Z : u * ndiv (nsub b0 (dot r x')) u + dot r x' = b0) by (rnum; field; auto). rewrite Z. f_equal.
    unfold bs'. clear - LR Hb. revert bs Hb; induction LR; intros bs Hb. subst. revert bs Hb. induction rows as [|row rows IH]; intros [|c bs] Hb; try discriminate; [reflexivity|].
    injection Hb as Hb. unfold vadd, vscale in *. cbn [map map2 vmap2]. rewrite (IH bs Hb). f_equal. rnum. ring.
Qed.

(** *** elimination *)
Lemma argmax_best (l : list R) : forall pre i best m,
  i = length pre -> (best < i)%nat \/ m < 0 -> (forall k, (k < i)%nat -> Rabs (nth k pre 0) <= m) -> ((best < i)%nat -> m = Rabs (nth best pre 0)) ->
  (l <> [] \/ (best < i)%nat) ->
  let p := argmax i best m l in (p < i + length l)%nat /\ forall k, (k < i + length l)%nat -> Rabs (nth k (pre ++ l) 0) <= Rabs (nth p (pre ++ l) 0).
Proof.
  induction l as [|a l IH]; intros pre i best m Hi Hb Hall Hm Hne; cbn [argmax].
  - assert (B : (best < i)%nat) by (destruct Hne; [congruence|auto]). cbn [length]. rewrite Nat.add_0_r, app_nil_r. split; [exact B|]. intros k Hk. rewrite <- (Hm B). auto.
  - rnum. destruct (Rltb_spec m (Rabs a)) as [C|C].
    + specialize (IH (pre ++ [a]) (S i) i (Rabs a)). rewrite <- app_assoc in IH. cbn [app length] in *. rewrite Nat.add_succ_r. apply IH.
      * rewrite app_length. cbn. lia.
      * left. lia.
      * intros k Hk. destruct (Nat.eq_dec k i) as [E|E].
        -- subst k i. rewrite app_nth2, Nat.sub_diag by lia. cbn. lra.
        -- rewrite app_nth1 by lia. specialize (Hall k ltac:(lia)). lra.
      * intros _. subst i. rewrite app_nth2, Nat.sub_diag by lia. reflexivity.
      * right. lia.
    + assert (B : (best < i)%nat) by (destruct Hb as [B|B]; [auto|]; pose proof (Rabs_pos a); lra).
      specialize (IH (pre ++ [a]) (S i) best m). rewrite <- app_assoc in IH. cbn [app length] in *. rewrite Nat.add_succ_r. apply IH.
      * rewrite app_length. cbn. lia.
      * left. lia.
      * intros k Hk. destruct (Nat.eq_dec k i) as [E|E].
        -- subst k i. rewrite app_nth2, Nat.sub_diag by lia. cbn. lra.
        -- rewrite app_nth1 by lia. apply Hall. lia.
      * intros _. rewrite app_nth1 by lia. auto.
      * right. lia.
Qed.
Lemma pivot_row_spec (A : matR) : A <> [] -> (pivot_row A < length A)%nat /\ forall k, (k < length A)%nat -> Rabs (hd 0 (nth k A [])) <= Rabs (hd 0 (nth (pivot_row A) A [])).
Proof.
  intros H. unfold pivot_row. rnum. pose proof (argmax_best (map (fun r => hd 0 r) A) [] 0 0 (- (1))) as S. cbn [app length] in S. cbn zeta in S.
  rewrite map_length in S. destruct S as [S1 S2]; auto; [right; lra|intros; lia|intros; lia|left; destruct A; [congruence|discriminate]|].
  split; [exact S1|]. intros k Hk. specialize (S2 k Hk). assert (E : forall j, nth j (map (fun r => hd 0 r) A) 0 = hd 0 (nth j A [])) by (intros j; exact (map_nth (fun r => hd 0 r) A [] j)). rewrite !E in S2. exact S2.
Qed.

Lemma wf_swap m n (A : matR) k j : wf m n A -> (k < m)%nat -> (j < m)%nat -> wf m n (swap [] A k j).
Proof.
  intros [L F] Hk Hj. split; [now rewrite swap_length|]. rewrite Forall_forall in *. intros r Hr. apply F. apply (Permutation.Permutation_in _ (swap_perm [] A k j ltac:(lia) ltac:(lia)) Hr).
Qed.
Lemma hd_tl_cons n (row : vecR) : length row = S n -> row = hd 0 row :: tl row.
Proof. destruct row; [discriminate|reflexivity]. Qed.
(** one elimination step *)
Lemma elim_rows n a r (rest : matR) x0 x' : a <> 0 -> length r = n -> wf (length rest) (S n) rest -> length x' = n ->
  let ls := map (fun row => hd 0 row / a) rest in
  let sch := map2 (fun l row => vsub (tl row) (vscale l r)) ls rest in
  mv rest (x0 :: x') = vadd (vscale (a * x0 + dot r x') ls) (mv sch x').
Proof.
  intros Ha Hr Hw Hx. cbv zeta. induction rest as [|row rest IH]; [reflexivity|].
  cbn [length] in Hw. apply wf_cons in Hw. destruct Hw as [Hrow Hw]. specialize (IH Hw). unfold vadd, vscale in *. cbn [map map2 vmap2]. rewrite !mv_cons. cbn [vmap2]. rewrite IH.
  f_equal. rewrite (hd_tl_cons n row Hrow) at 1. rewrite dot_cons. fold (vscale (hd 0 row / a) r). rewrite dot_vsub_l, dot_vscale_l.
  - rnum. field. exact Ha.
  - rewrite vscale_length, Hr. destruct row; cbn in *; lia.
Qed.
Lemma wf_sch n a r (rest : matR) k : length r = n -> wf k (S n) rest ->
  wf k n (map2 (fun l row => vsub (tl row) (vscale l r)) (map (fun row => hd 0 row / a) rest) rest).
Proof.
  intros Hr [L F]. split; [rewrite map2_length, map_length; lia|]. clear L. induction rest as [|row rest IH]; [constructor|]. inversion F; subst. cbn [map map2]. constructor; auto.
  rewrite vsub_length, vscale_length. destruct row; cbn in *; lia.
Qed.
Lemma map_hd_cons (ls : vecR) (D : matR) : length ls = length D -> map (hd 0) (map2 cons ls D) = ls.
Proof. revert D; induction ls; intros [|d D] H; cbn in *; auto; try discriminate. f_equal. auto. Qed.
Lemma map_tl_cons (ls : vecR) (D : matR) : length ls = length D -> map (@tl R) (map2 cons ls D) = D.
Proof. revert D; induction ls; intros [|d D] H; cbn in *; auto; try discriminate. f_equal. auto. Qed.
Lemma wf_consD n a r (ls : vecR) (D : matR) : length r = n -> length ls = n -> wf n n D -> wf (S n) (S n) ((a :: r) :: map2 cons ls D).
Proof.
  intros Hr Hl [L F]. apply wf_cons. split; [cbn; lia|]. split; [rewrite map2_length; lia|].
  clear L Hl. revert ls. induction D as [|d D IH]; intros [|l ls]; cbn [map2]; try constructor; inversion F; subst; cbn; auto.
Qed.

Lemma ref_lu_ok n : forall A f, wf n n A -> ref_lu n A = Ok f -> factors n A f.
Proof.
  induction n as [|n IH]; intros A f HA H.
  - cbn in H. injection H as <-. split; [split; [apply wf_nil|]; split; [reflexivity|]; split; [constructor|intros; lia]|].
    intros x Hx. destruct HA as [L _]. destruct A; [|discriminate]. reflexivity.
  - cbn [ref_lu] in H. assert (NE : A <> []) by (destruct HA as [L _]; destruct A; [discriminate|congruence]).
    destruct (pivot_row_spec A NE) as [HP _]. set (p := pivot_row A) in *. pose proof (wf_length _ _ _ HA) as LA.
    assert (HS : wf (S n) (S n) (swap [] A 0 p)) by (apply wf_swap; auto; lia).
    destruct (wf_S_inv _ _ HS) as (a & r & rest & ES). rewrite ES in H, HS. rnum. destruct (Reqb_spec a 0) as [C|C]; [discriminate|].
    bind_inv H as g Eg. destruct g as [D piv]. injection H as <-.
    apply wf_cons in HS. destruct HS as [Lr Hrest]. injection Lr as Lr. pose proof (wf_length _ _ _ Hrest) as Lrest.
    set (ls := map (fun row => hd 0 row / a) rest) in *. set (sch := map2 (fun l row => vsub (tl row) (vscale l r)) ls rest) in *.
    assert (Lls : length ls = n) by (unfold ls; rewrite map_length; lia).
    assert (Hsch : wf n n sch) by (apply wf_sch; auto).
    destruct (IH sch (D, piv) Hsch Eg) as [(WD & LP & FP & UD) HF]. cbn [fst snd] in *.
    assert (Lap : length (apply_piv 0 piv ls) = n) by now rewrite apply_piv_length.
    assert (LD : length D = n) by apply WD.
    split; [split; [|split; [|split]]|]; cbn [fst snd].
    + now apply wf_consD.
    + cbn. now rewrite map_length, LP.
    + constructor; [lia|]. apply Forall_forall. intros q Hq. apply in_map_iff in Hq. destruct Hq as (q' & <- & Hq). rewrite Forall_forall in FP. specialize (FP q' Hq). lia.
    + intros [|i] Hi; [exact C|]. rewrite mget_D_S. rewrite map_tl_cons by lia. apply UD. lia.
    + intros [|x0 x'] Hx; [discriminate|]. injection Hx as Hx. rewrite (lu_mul_cons n a r _ (wf_consD n a r _ D Lr Lap WD) _ piv) by auto.
      rewrite map_hd_cons, map_tl_cons by lia.
      destruct A as [|row0 A']; [congruence|]. rewrite mv_cons. rewrite apply_piv_cons; [|revert FP; apply Forall_impl; intros; lia].
      assert (EM : swap 0 (dot row0 (x0 :: x') :: mv A' (x0 :: x')) 0 p = mv ((a :: r) :: rest) (x0 :: x')).
      { rewrite <- ES. rewrite <- mv_cons. unfold mv. rewrite map_swap, dot_nil_l. reflexivity. }
      rewrite EM, mv_cons, dot_cons. f_equal.
      rewrite (elim_rows n a r rest x0 x' C Lr) by (auto; rewrite Lrest; auto). fold ls. fold sch.
      assert (PO : piv_ok n 0 piv) by (split; [lia|auto]).
      rewrite (apply_piv_vadd n) by (auto; rewrite ?vscale_length, ?mv_length; auto; apply Hsch). rewrite apply_piv_vscale, HF by auto. reflexivity.
Qed.
Lemma ref_lu_total n : forall A, wf n n A -> nonsingular n A -> exists f, ref_lu n A = Ok f.
Proof.
  induction n as [|n IH]; intros A HA HN; [eexists; reflexivity|]. cbn [ref_lu].
  assert (NE : A <> []) by (destruct HA as [L _]; destruct A; [discriminate|congruence]).
  destruct (pivot_row_spec A NE) as [HP HM]. set (p := pivot_row A) in *. pose proof (wf_length _ _ _ HA) as LA.
  assert (HS : wf (S n) (S n) (swap [] A 0 p)) by (apply wf_swap; auto; lia).
  destruct (wf_S_inv _ _ HS) as (a & r & rest & ES). rewrite ES. rewrite ES in HS. apply wf_cons in HS. destruct HS as [Lr Hrest]. injection Lr as Lr. pose proof (wf_length _ _ _ Hrest) as Lrest.
  assert (Ea : nth p A [] = a :: r).
  { transitivity (nth 0 (swap [] A 0 p) []); [|now rewrite ES]. rewrite nth_swap by lia. cbn. destruct p; reflexivity. }
  assert (NS : nonsingular (S n) ((a :: r) :: rest)).
  { intros x Hx E. apply HN; auto. rewrite <- ES in E. unfold mv in *. rewrite map_swap, dot_nil_l in E. apply (f_equal (fun l => swap 0 l 0 p)) in E.
    assert (LM : length (map (fun r0 : list R => dot r0 x) A) = S n) by (rewrite map_length; exact LA). rewrite swap_swap in E by (unfold vec, mat in *; lia). rewrite E. unfold vzeros. rnum. clear. apply (nth_ext _ _ 0 0); [now rewrite swap_length|]. intros i Hi. rewrite swap_length in Hi.
    unfold swap. assert (Z : forall k, nth k (repeat 0 (S n)) 0 = 0) by (intros; apply nth_repeat). rewrite !Z. 
    assert (U : forall (l : vecR) k, (forall i, nth i l 0 = 0) -> forall i, nth i (upd l k 0) 0 = 0).
    { clear. induction l as [|b l IH]; intros [|k] H [|i]; cbn; auto. - apply (H (S i)). - apply (H 0%nat). - apply IH. intros j. apply (H (S j)). }
    rewrite U; auto. }
  rnum. destruct (Reqb_spec a 0) as [C|C].
  - exfalso. subst a. specialize (NS (1 :: vzeros n)). assert (Z : (1 :: vzeros n : vecR) = vzeros (S n)); [|unfold vzeros in Z; cbn in Z; rnum; injection Z; lra].
    apply NS; [cbn; now rewrite vzeros_length|]. rewrite mv_cons, dot_cons, dot_zeros_r. unfold vzeros at 2. cbn [repeat]. rnum. f_equal; [ring|]. fold (vzeros n : vecR).
    assert (ZC : forall row, In row rest -> hd 0 row = 0).
    { intros row Hr. assert (I : In row A). { apply (Permutation.Permutation_in _ (swap_perm [] A 0 p ltac:(lia) ltac:(lia))). rewrite ES. now right. }
      destruct (In_nth _ _ [] I) as (k & Hk & E). specialize (HM k Hk). rewrite E, Ea in HM. cbn [hd] in HM. rewrite Rabs_R0 in HM. pose proof (Rabs_pos (hd 0 row)).
      destruct (Req_dec (hd 0 row) 0) as [Z|Z]; auto. apply Rabs_no_R0 in Z. lra. }
    clear - ZC Hrest Lrest. destruct Hrest as [_ F]. 
    assert (G : forall z, (forall y, dot y z = 0) -> mv rest (1 :: z) = vzeros (length rest)); [|].
    { intros z Hz. clear Lrest. induction rest as [|row rest IH]; [reflexivity|]. inversion F; subst. rewrite mv_cons. cbn [length]. unfold vzeros. cbn [repeat]. rnum. f_equal.
      - rewrite (hd_tl_cons n row) by auto. rewrite dot_cons, Hz, ZC by (left; auto). ring.
      - apply IH; auto. intros; apply ZC; now right. }
    rewrite G by (intros y; apply dot_zeros_r). now rewrite Lrest.
  - set (ls := map (fun row => hd 0 row / a) rest) in *. set (sch := map2 (fun l row => vsub (tl row) (vscale l r)) ls rest) in *.
    assert (Hsch : wf n n sch) by (apply wf_sch; auto).
    destruct (IH sch Hsch) as ([D piv] & E).
    + intros x Hx Ez. assert (X : (- (dot r x) / a) :: x = vzeros (S n)); [|unfold vzeros in X; cbn [repeat] in X; injection X as _ X; exact X].
      apply NS; [cbn; lia|]. rewrite mv_cons, dot_cons. rewrite (elim_rows n a r rest) by (auto; rewrite Lrest; auto). fold ls. fold sch. rewrite Ez.
      assert (Z : a * (- dot r x / a) + dot r x = 0) by (field; auto). rewrite Z. rewrite vscale_0. unfold ls at 1. rewrite map_length, Lrest.
      rewrite vadd_zeros_r by apply vzeros_length. reflexivity.
    + rewrite E. cbn [bind]. eexists; reflexivity.
Qed.

Lemma vm_meye n (x : vecR) : length x = n -> vm n x (meye n) = x.
Proof. intros H. unfold vm, meye. replace n with (length (vones n : vecR)) at 1 by apply vones_length. rewrite mtr_mdiag. now apply mv_meye. Qed.
(** solving with a factorisation of A *)
Lemma factors_inj n A f x y : factors n A f -> length x = n -> length y = n -> mv A x = mv A y -> x = y.
Proof.
  intros [(W & _ & _ & U) H] Hx Hy E. destruct f as [D piv]. apply (lu_mul_inj n D piv); auto. rewrite <- !H by auto. now rewrite E.
Qed.
Lemma factors_solve n A f x b : factors n A f -> wf n n A -> length b = n -> length x = n -> lu_mul n f x = apply_piv 0 (snd f) b -> mv A x = b.
Proof.
  intros [HP H] W Hb Hx E. rewrite <- H in E by auto. apply (apply_piv_inj n (snd f)); auto; [now apply packed_piv|]. rewrite mv_length. apply W.
Qed.
Lemma ref_getrs_ok n f b : packed n f -> length b = n -> length (ref_getrs f b) = n /\ lu_mul n f (ref_getrs f b) = apply_piv 0 (snd f) b.
Proof.
  intros (W & L & F & U) Hb. destruct f as [D piv]. unfold ref_getrs. cbn [fst snd] in *. rewrite (wf_length _ _ _ W).
  apply ref_solve_ok; auto. now rewrite apply_piv_length.
Qed.
Theorem ref_lapack_ok : lapack_ok ref_lapack.
Proof.
  split; cbn [la_getrf la_getrs la_inv ref_lapack].
  - intros n A f W H. unfold ref_getrf in H. rewrite (wf_length _ _ _ W) in H. now apply ref_lu_ok.
  - intros n A W H. unfold ref_getrf. rewrite (wf_length _ _ _ W). now apply ref_lu_total.
  - intros n f b. apply ref_getrs_ok.
  - intros n A B W H. unfold ref_inv in H. bind_inv H as f E. unfold ref_getrf in E. rewrite (wf_length _ _ _ W) in *. apply ref_lu_ok in E; auto. injection H as <-.
    assert (S : forall b, length b = n -> length (ref_getrs f b) = n /\ mv A (ref_getrs f b) = b).
    { intros b Hb. destruct (ref_getrs_ok n f b (proj1 E) Hb) as [L1 L2]. split; auto. eapply factors_solve; eauto. }
    set (B := mtr n (map (ref_getrs f) (meye n))). assert (WB : wf n n B) by (apply wf_mtr; rewrite map_length; vlen). split; [exact WB|].
    assert (AB : forall x, length x = n -> mv A (mv B x) = x).
    { intros x Hx. unfold B. change (mv (mtr n (map (ref_getrs f) (meye n))) x) with (vm n x (map (ref_getrs f) (meye n))).
      assert (FR : Forall (fun c => length c = n) (meye n : matR)) by apply wf_meye.
      rewrite (vm_map_rows (n := n) (k := n) (meye n) (ref_getrs f) (mv A)).
      - rewrite (map_ext_in _ (fun c => c)), map_id; [now apply vm_meye|]. intros c Hc. rewrite Forall_forall in FR. apply S. auto.
      - intros u v Hu Hv. apply mv_vadd. lia.
      - intros k u _. apply mv_vscale.
      - rewrite mv_zeros. f_equal. apply W.
      - revert FR. apply Forall_impl. intros c Hc. now apply S.
      - revert FR. apply Forall_impl. intros c Hc. rewrite mv_length. apply W.
      - vlen. }
    intros x Hx. split; [now apply AB|]. apply (factors_inj n A f); auto; [rewrite mv_length; apply WB|]. apply AB. rewrite mv_length. apply W.
  - intros n A W H. unfold ref_inv, ref_getrf. rewrite (wf_length _ _ _ W). destruct (ref_lu_total n A W H) as (f & ->). cbn [bind]. eexists; reflexivity.
Qed.
