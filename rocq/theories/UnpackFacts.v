(** efficient_btriunpack, get_step *)
From Coq Require Import List Arith ZArith Bool Reals Lia Lra Psatz Permutation.
From Verif Require Import Num Tensor RBase ResFacts LinAlg Lapack LapackSpec PivFacts LuFacts Pdipm Lcp KktSpec KktFacts PdipmSpec PdipmFacts.
Import ListNotations.
Open Scope R_scope.

Lemma mget_square n f i j : (i < n)%nat -> (j < n)%nat -> mget (square n f) i j = f i j.
Proof. intros Hi Hj. unfold mget, square. rewrite nth_map_seq by auto. now apply vget_seq. Qed.
Lemma unpack_shapes n (D : matR) piv : length D = n -> piv_ok n 0 piv ->
  permutation_matrix n (unpack_P n piv) /\ unit_lower n (unpack_L D) /\ upper_triangular n (unpack_U D).
Proof.
  intros LD HP. split; [|split].
  - split; [now apply wf_unpack_P|]. exists (final_order n piv). pose proof (final_order_perm n piv HP) as Pm. split; [exact Pm|]. intros i j Hi Hj.
    assert (Ll : length (final_order n piv) = n) by (rewrite (Permutation_length Pm); apply seq_length).
    rewrite unpack_P_permuted. rewrite mget_mtr by (auto; rewrite (wf_length _ _ _ (wf_permuted n piv HP)); auto).
    unfold permuted, mget. rewrite (nth_indep _ [] (nth 0 (meye n) [])) by (rewrite map_length, Ll; auto). rewrite (map_nth (fun i => nth i (meye n) []) _ 0%nat).
    set (k := nth j (final_order n piv) 0%nat). assert (Hk : (k < n)%nat). { assert (In k (seq 0 n)) by (apply (Permutation_in _ Pm); apply nth_In; lia). apply in_seq in H. lia. }
    change (vget (nth k (meye n) []) i) with (mget (meye n) k i). unfold meye. rewrite mget_mdiag by (rewrite vones_length; auto). rewrite vget_ones by auto. reflexivity.
  - rewrite (unpack_L_square n) by auto. split; [apply wf_square|]. intros i j Hi Hj. rewrite mget_square by auto. unfold lower. split.
    + intros ->. rewrite Nat.ltb_irrefl, Nat.eqb_refl. reflexivity.
    + intros L. destruct (Nat.ltb_spec j i); [lia|]. destruct (Nat.eqb_spec i j); [lia|reflexivity].
  - rewrite (unpack_U_square n) by auto. split; [apply wf_square|]. intros i j Hi Hj L. rewrite mget_square by auto. unfold upper. destruct (Nat.leb_spec i j); [lia|reflexivity].
Qed.
Lemma unpack_product n (A : matR) f : wf n n A -> factors n A f ->
  mm n (unpack_P n (snd f)) (mm n (unpack_L (fst f)) (unpack_U (fst f))) = A.
Proof.
  intros WA [HP HF]. pose proof (packed_piv n f HP) as Pk. assert (LD : length (fst f) = n) by apply HP. pose proof (wf_unpack_P n _ Pk) as WP.
  rewrite (unpack_L_square n), (unpack_U_square n) by auto. pose proof (wf_square n (lower (fst f))) as WL. pose proof (wf_square n (upper (fst f))) as WU.
  assert (WLU : wf n n (mm n (square n (lower (fst f))) (square n (upper (fst f))))) by (apply wf_mm, WL).
  apply (mv_ext n n); auto; [apply wf_mm; apply WP|]. intros x Hx. rewrite (mv_mm n n n) by auto. rewrite (mv_mm n n n) by auto.
  fold (lu_mul n f x). rewrite <- HF by auto. apply mv_unpack_P; auto. rewrite mv_length. apply WA.
Qed.

(** get_step reaches the boundary exactly *)
Lemma get_step_spec vs i v dv : nth_error vs i = Some (v, dv) ->
  Forall (fun p => fst p <> [] /\ length (snd p) = length (fst p) /\ pos (fst p) /\ Forall (fun a => a <> 0) (snd p)) vs ->
  exists a, nth_error (get_step vs) i = Some a /\ 0 < a /\
    (forall t, 0 <= t -> t <= 999 / 1000 * a -> pos (vadd v (vscale t dv))) /\
    ((exists k, vget dv k < 0) -> Forall (fun b => 0 <= b) (vadd v (vscale a dv)) /\ In 0 (vadd v (vscale a dv))) /\
    (Forall (fun b => 0 < b) dv -> 1 <= a).
Proof.
  intros Hi H. pose proof (step_cap_ge vs) as Hc. assert (Hin : In (v, dv) vs) by (now apply nth_error_In with i). pose proof H as HF. rewrite Forall_forall in H. destruct (H _ Hin) as (N & L & P & D). cbn [fst snd] in *.
  exists (step1 (step_cap vs) v dv). split; [unfold get_step; cbv zeta; exact (map_nth_error (fun '(v, dv) => step1 (step_cap vs) v dv) i vs Hi)|].
  split; [now apply step1_pos|]. split; [intros t Ht Ha; now apply (step1_move (step_cap vs))|].
  set (a := step1 (step_cap vs) v dv). assert (Dk : forall k, (k < length v)%nat -> vget dv k <> 0) by (intros k Hk; rewrite Forall_forall in D; apply D, nth_In; lia).
  assert (Rk : forall k, (k < length v)%nat -> vget dv k < 0 -> a <= - vget v k / vget dv k).
  { intros k Hk Hd. pose proof (step1_le (step_cap vs) v dv k L Hk) as S. fold a in S. destruct (0 <? vget dv k)%num eqn:E; [apply Rltb_true in E; rnum; lra|exact S]. }
  split.
  - intros (k & Hk). assert (Hkl : (k < length v)%nat). { destruct (Nat.lt_ge_cases k (length v)) as [|G]; auto. rewrite vget_out in Hk by lia. lra. }
    assert (Ap : 0 <= a) by (apply step1_nonneg; auto). split.
    + apply Forall_forall. intros b Hb. destruct (In_nth _ _ 0 Hb) as (m & Hm & <-). rewrite vadd_length, vscale_length in Hm. change (0 <= vget (vadd v (vscale a dv)) m).
      rewrite vget_vadd by (rewrite ?vscale_length; lia). rewrite vget_vscale. pose proof (pos_get v m P ltac:(lia)). destruct (Rlt_le_dec (vget dv m) 0) as [Hd|Hd]; [|nra].
      pose proof (Rk m ltac:(lia) Hd). assert (- vget v m / vget dv m * vget dv m = - vget v m) by (field; lra). nra.
    + destruct (step1_in (step_cap vs) v dv L N) as (m & Hm & E). fold a in E.
      assert (X : exists m, (m < length v)%nat /\ vget dv m < 0 /\ a = - vget v m / vget dv m).
      { destruct (0 <? vget dv m)%num eqn:Em.
        - (* the cap: then it is at most the ratio of k, which is at most the cap *)
          exists k. split; [exact Hkl|]. split; [exact Hk|]. apply Rle_antisym; [now apply Rk|]. rewrite E.
          unfold step_cap. cbv zeta. set (M := vmax _). assert (HM : - vget v k / vget dv k <= M).
          { unfold M. assert (Hr : In (- vget v k / vget dv k) (flat_map (fun '(v0, dv0) => ratios v0 dv0) vs)).
            { apply in_flat_map. exists (v, dv). split; [exact Hin|]. unfold ratios. pose proof (vget_map2 (fun a b => (- a / b)%num) v dv k Hkl ltac:(lia)) as E1. cbv beta in E1. rnum. rewrite <- E1.
              apply nth_In. rewrite vmap2_length. lia. }
            clear - Hr. revert Hr. generalize (- vget v k / vget dv k). intros x Hr. destruct (flat_map (fun '(v0, dv0) => ratios v0 dv0) vs) as [|b l]; [destruct Hr|]. cbn [vmax].
            assert (FM : forall (l : list R) a, a <= fold_left (fun m b => if m <? b then b else m)%num l a /\ (forall b, In b l -> b <= fold_left (fun m b => if m <? b then b else m)%num l a)).
            { clear. induction l as [|c l IH]; intros a; cbn [fold_left]; [split; [lra|intros b []]|]. destruct (IH (if a <? c then c else a)%num) as (H1 & H2).
              assert (Hm : a <= (if a <? c then c else a)%num /\ c <= (if a <? c then c else a)%num) by (destruct (a <? c)%num eqn:E; [apply Rltb_true in E|apply Rltb_false in E]; lra).
              split; [lra|]. intros b [<-|Hb]; [lra|auto]. }
            destruct Hr as [<-|Hr]; [apply (proj1 (FM l b))|apply (proj2 (FM l b)); exact Hr]. }
          destruct (1 <? M)%num eqn:EM; [exact HM|]. apply Rltb_false in EM. rnum. lra.
        - apply Rltb_false in Em. rnum. exists m. split; [exact Hm|]. split; [pose proof (Dk m Hm); lra|exact E]. }
      destruct X as (m' & Hm' & Hd' & E'). assert (Z : vget (vadd v (vscale a dv)) m' = 0).
      { rewrite vget_vadd by (rewrite ?vscale_length; lia). rewrite vget_vscale, E'. field. lra. }
      rewrite <- Z. apply nth_In. rewrite vadd_length, vscale_length. lia.
  - intros Hp. destruct (step1_in (step_cap vs) v dv L N) as (m & Hm & E). fold a in E. rewrite E. assert (0 < vget dv m) by (rewrite Forall_forall in Hp; apply Hp, nth_In; lia).
    destruct (0 <? vget dv m)%num eqn:Em; [exact Hc|]. apply Rltb_false in Em. rnum. lra.
Qed.
