(** The assembled system matrices act body by body *)
From Coq Require Import List Arith ZArith Bool Reals Lra Lia.
From Verif Require Import Num Tensor Utils Bodies Constraints Contacts World Spec ResFacts RBase LinAlg WorldFacts
     HandlerFacts LayoutFacts.
Import ListNotations.
Open Scope R_scope.

(** *** writing segments *)
Lemma row_put_length (r : vecR) c x : (c + length x <= length r)%nat -> length (row_put r c x) = length r.
Proof. intros. unfold row_put. vlen. Qed.
Lemma vget_firstn (r : vecR) c j : (j < c)%nat -> vget (firstn c r) j = vget r j.
Proof.
  intros H. unfold vget. revert r j H; induction c; intros r j H; [lia|].
  destruct r; [reflexivity|]. destruct j; simpl; auto. apply IHc. lia.
Qed.
Lemma vget_skipn (r : vecR) c j : vget (skipn c r) j = vget r (c + j).
Proof.
  unfold vget. revert r; induction c; intros r; [reflexivity|].
  destruct r; simpl; auto. destruct j; reflexivity.
Qed.
Lemma vget_row_put (r : vecR) c x j : (c + length x <= length r)%nat ->
  vget (row_put r c x) j = if (Nat.leb c j && Nat.ltb j (c + length x))%bool then vget x (j - c) else vget r j.
Proof.
  intros H. unfold row_put. rewrite vget_app. assert (L : length (firstn c r) = c) by vlen. rewrite L.
  destruct (Nat.ltb_spec j c).
  - destruct (Nat.leb_spec c j); [lia|]. cbn [andb]. now apply vget_firstn.
  - destruct (Nat.leb_spec c j); [|lia]. cbn [andb]. rewrite vget_app.
    destruct (Nat.ltb_spec (j - c) (length x)), (Nat.ltb_spec j (c + length x)); try lia; auto.
    rewrite vget_skipn. f_equal. lia.
Qed.
Lemma row_put_add (r : vecR) c x : (c + length x <= length r)%nat ->
  (forall j, (c <= j < c + length x)%nat -> vget r j = 0) ->
  row_put r c x = vadd r (row_put (vzeros (length r)) c x).
Proof.
  intros H Hz. apply vext.
  - rewrite row_put_length by auto. vlen. rewrite row_put_length; vlen.
  - intros i Hi. rewrite row_put_length in Hi by auto.
    rewrite vget_vadd; [|auto|rewrite row_put_length; vlen].
    rewrite !vget_row_put by vlen. rewrite vget_zeros.
    destruct (Nat.leb_spec c i), (Nat.ltb_spec i (c + length x)); cbn [andb]; try ring.
    rewrite Hz by lia. ring.
Qed.
Lemma dot_put_zeros n c (x y : vecR) : (c + length x <= n)%nat -> length y = n ->
  dot (row_put (vzeros n) c x) y = dot x (firstn (length x) (skipn c y)).
Proof.
  intros H Hy. unfold row_put.
  assert (E1 : firstn c (vzeros n : vecR) = vzeros c).
  { apply vext; [vlen|]. intros i Hi. vlen. rewrite vget_firstn by lia. now rewrite !vget_zeros. }
  assert (E2 : skipn (c + length x) (vzeros n : vecR) = vzeros (n - (c + length x))).
  { apply vext; [vlen|]. intros i Hi. rewrite vget_skipn. now rewrite !vget_zeros. }
  rewrite E1, E2.
  rewrite <- (firstn_skipn c y) at 1. rewrite dot_app by vlen. rewrite dot_zeros_l, Rplus_0_l.
  rewrite <- (firstn_skipn (length x) (skipn c y)) at 1. rewrite dot_app by vlen. rewrite dot_zeros_l. ring.
Qed.
(** the scalar product of a segment with body [i]'s entries *)
Definition d3 (x : v3 R) (y : v3 R) : R := fst x * fst y + fst (snd x) * fst (snd y) + snd (snd x) * snd (snd y).
Lemma seg_eq (y : vecR) i : (3 * i + 3 <= length y)%nat -> firstn 3 (skipn (3 * i) y) = v3list (v3_at y i).
Proof.
  intros H. apply vext; [vlen; reflexivity|]. intros j Hj. vlen.
  rewrite vget_firstn by lia. rewrite vget_skipn. unfold v3list, v3_at.
  destruct j as [|[|[|j]]]; try lia; cbn; f_equal; lia.
Qed.
Lemma dot_d3 (a y : v3 R) : dot (v3list a) (v3list y) = d3 a y.
Proof. unfold v3list, d3. rewrite !dot_cons, dot_nil_l. ring. Qed.
Lemma dot_put1 n i (a : v3 R) (y : vecR) : (i < n)%nat -> length y = (3 * n)%nat ->
  dot (row_put (vzeros (3 * n)) (3 * i) (v3list a)) y = d3 a (v3_at y i).
Proof.
  intros Hi Hy. rewrite dot_put_zeros by (cbn [length v3list]; lia).
  change (length (v3list a)) with 3%nat. rewrite seg_eq by lia. apply dot_d3.
Qed.
Lemma dot_put2 n i j (a b : v3 R) (y : vecR) : (i < n)%nat -> (j < n)%nat -> i <> j -> length y = (3 * n)%nat ->
  dot (row_put (row_put (vzeros (3 * n)) (3 * i) (v3list a)) (3 * j) (v3list b)) y
  = d3 a (v3_at y i) + d3 b (v3_at y j).
Proof.
  intros Hi Hj Hij Hy.
  assert (L1 : (3 * i + length (v3list a) <= length (vzeros (3 * n) : vecR))%nat) by (rewrite vzeros_length; cbn [length v3list]; lia).
  assert (L : length (row_put (vzeros (3 * n)) (3 * i) (v3list a)) = (3 * n)%nat).
  { rewrite row_put_length by auto. apply vzeros_length. }
  assert (L2 : (3 * j + length (v3list b) <= length (row_put (vzeros (3 * n)) (3 * i) (v3list a)))%nat)
    by (rewrite L; cbn [length v3list]; lia).
  rewrite row_put_add; auto.
  - rewrite dot_vadd_l.
    + rewrite L, !dot_put1 by auto. reflexivity.
    + rewrite L. rewrite row_put_length; vlen; cbn [length v3list]; lia.
  - intros k Hk. rewrite vget_row_put by auto. change (length (v3list a)) with 3%nat. change (length (v3list b)) with 3%nat in Hk.
    rewrite vget_zeros.
    destruct (Nat.leb_spec (3 * i) k), (Nat.ltb_spec k (3 * i + 3)); cbn [andb]; auto. lia.
Qed.
Lemma put2_length n i j (a b : v3 R) : (i < n)%nat -> (j < n)%nat ->
  length (row_put (row_put (vzeros (3 * n)) (3 * i) (v3list a)) (3 * j) (v3list b)) = (3 * n)%nat.
Proof.
  intros. rewrite row_put_length; rewrite row_put_length; rewrite ?vzeros_length; cbn [length v3list]; try lia.
Qed.
Lemma put1_length n i (a : v3 R) : (i < n)%nat ->
  length (row_put (vzeros (3 * n)) (3 * i) (v3list a)) = (3 * n)%nat.
Proof. intros. rewrite row_put_length; rewrite ?vzeros_length; cbn [length v3list]; try lia. Qed.

(** *** block assignment *)
Lemma blk_put_app (A1 A2 A3 B : matR) c : length A2 = length B ->
  blk_put (A1 ++ A2 ++ A3) (length A1) c B = A1 ++ map2 (fun r b => row_put r c b) A2 B ++ A3.
Proof.
  intros H. induction A1 as [|r A1 IH].
  - cbn [app length]. revert B H; induction A2 as [|r A2 IH2]; intros [|b B] H; try discriminate.
    + cbn. destruct A3; reflexivity.
    + cbn. f_equal. apply IH2. simpl in H. lia.
  - cbn. f_equal. exact IH.
Qed.

Lemma mzeros_app m1 m2 n : mzeros (m1 + m2) n = mzeros m1 n ++ mzeros m2 n :> matR.
Proof. apply repeat_app. Qed.
Lemma map2_repeat {A B C} (f : A -> B -> C) a (l : list B) : map2 f (repeat a (length l)) l = map (f a) l.
Proof. induction l; simpl; f_equal; auto. Qed.

(** world.M *)
Definition M_rows (n i : nat) (b : body R) : matR := map (row_put (vzeros n) (3 * i)) (b_M b).
Lemma combine_seq_cons {A} k (a : A) l : combine (seq k (length (a :: l))) (a :: l) = (k, a) :: combine (seq (S k) (length l)) l.
Proof. reflexivity. Qed.
Lemma world_M_rows_gen n bs : forall k (done : matR), length done = (3 * k)%nat ->
  fold_left (fun M ib => blk_put M (3 * fst ib) (3 * fst ib) (b_M (snd ib)))
            (combine (seq k (length bs)) bs) (done ++ mzeros (3 * length bs) n)
  = done ++ flat_map (fun ib => M_rows n (fst ib) (snd ib)) (combine (seq k (length bs)) bs).
Proof.
  induction bs as [|b bs IH]; intros k done Hd.
  - change (mzeros (3 * length (@nil (body R))) n) with (@nil (list R)). cbn [length seq combine fold_left flat_map].
    rewrite app_nil_r. reflexivity.
  - rewrite combine_seq_cons. cbn [fold_left flat_map fst snd].
    replace (3 * length (b :: bs))%nat with (3 + 3 * length bs)%nat by (cbn [length]; lia).
    rewrite (mzeros_app 3 (3 * length bs)). rewrite <- Hd at 1. rewrite blk_put_app by reflexivity.
    rewrite app_assoc. change (mzeros 3 n : matR) with (repeat (vzeros n : vecR) (length (b_M b))).
    rewrite map2_repeat.
    rewrite IH.
    + rewrite <- app_assoc. unfold M_rows. reflexivity.
    + vlen.
Qed.
Lemma world_M_rows bs : world_M bs = flat_map (fun ib => M_rows (3 * length bs) (fst ib) (snd ib)) (combine (seq 0 (length bs)) bs).
Proof. exact (world_M_rows_gen (3 * length bs) bs 0 [] eq_refl). Qed.

(** mass matrix times the velocity of one body *)
Definition mass3 (b : body R) (u : v3 R) : v3 R :=
  (b_inertia b * fst u, (b_mass b * fst (snd u), b_mass b * snd (snd u))).
Lemma mv_flat_map {A} (f : A -> matR) l x : mv (flat_map f l) x = flat_map (fun a => mv (f a) x) l.
Proof. induction l; [reflexivity|]. simpl. rewrite mv_app, IHl. reflexivity. Qed.
Lemma mv_M_rows n i b x : (i < n)%nat -> length x = (3 * n)%nat ->
  mv (M_rows (3 * n) i b) x = v3list (mass3 b (v3_at x i)).
Proof.
  intros Hi Hx. unfold M_rows, b_M. cbn [map]. rewrite !mv_cons.
  change [b_inertia b; n0; n0] with (v3list (b_inertia b, (0, 0)) : vecR).
  change [n0; b_mass b; n0] with (v3list (0, (b_mass b, 0)) : vecR).
  change [n0; n0; b_mass b] with (v3list (0, (0, b_mass b)) : vecR).
  rewrite !dot_put1 by auto. unfold d3, mass3, v3list. cbn [fst snd mv map].
  repeat (apply f_equal2; [ring|]). reflexivity.
Qed.
Lemma mapi_combine {A B} (f : nat -> A -> B) l k : map (fun ib => f (fst ib) (snd ib)) (combine (seq k (length l)) l) = mapi_from k f l.
Proof. revert k; induction l; intros k; [reflexivity|]. rewrite combine_seq_cons. simpl. f_equal. apply IHl. Qed.
Lemma mv_world_M bs x : length x = (3 * length bs)%nat ->
  mv (world_M bs) x = cat3 (mapi (fun i b => mass3 b (v3_at x i)) bs).
Proof.
  intros Hx. rewrite world_M_rows, mv_flat_map. unfold mapi, cat3.
  rewrite <- mapi_combine, flat_map_concat_map, flat_map_concat_map, map_map. f_equal.
  apply map_ext_in. intros [i b] Hib. apply in_combine_l in Hib. apply in_seq in Hib. cbn [fst snd].
  apply mv_M_rows; auto. lia.
Qed.
Lemma wf_M_rows n i b : (i < n)%nat -> wf 3 (3 * n) (M_rows (3 * n) i b).
Proof.
  intros Hi. split; [reflexivity|]. unfold M_rows. rewrite Forall_map. unfold b_M.
  repeat constructor; rewrite row_put_length; vlen; cbn [length]; lia.
Qed.
Lemma wf_flat_map {A} (f : A -> matR) l k n : (forall a, In a l -> wf k n (f a)) -> wf (length l * k) n (flat_map f l).
Proof.
  induction l as [|a l IH]; intros H; [apply wf_nil|]. cbn [flat_map length].
  replace (S (length l) * k)%nat with (k + length l * k)%nat by lia.
  apply wf_app; [apply H; left; auto|]. apply IH. intros; apply H; right; auto.
Qed.
Lemma wf_world_M bs : wf (3 * length bs) (3 * length bs) (world_M bs).
Proof.
  rewrite world_M_rows.
  replace (3 * length bs)%nat with (length (combine (seq 0 (length bs)) bs) * 3)%nat at 1
    by (rewrite combine_length, seq_length; lia).
  apply wf_flat_map. intros [i b] Hib. apply in_combine_l in Hib. apply in_seq in Hib.
  apply wf_M_rows. cbn [fst]. lia.
Qed.

(** sums over bodies *)
Lemma dot_cat3 (l l' : list (v3 R)) : length l = length l' -> dot (cat3 l) (cat3 l') = fold_right Rplus 0 (map2 d3 l l').
Proof.
  revert l'; induction l as [|a l IH]; intros [|a' l'] H; try discriminate; [reflexivity|].
  change (cat3 (a :: l)) with (v3list a ++ cat3 l : vecR). change (cat3 (a' :: l')) with (v3list a' ++ cat3 l' : vecR).
  rewrite dot_app by reflexivity. rewrite dot_d3, IH by (simpl in H; lia). reflexivity.
Qed.
Lemma cat3_at n (x : vecR) : length x = (3 * n)%nat -> x = cat3 (map (v3_at x) (seq 0 n)).
Proof. intros. symmetry. now apply cat3_v3_at. Qed.

Lemma nth_flat_map3 {A} (f : A -> matR) l k r d : (forall a, In a l -> length (f a) = 3%nat) -> (k < length l)%nat -> (r < 3)%nat ->
  nth (3 * k + r) (flat_map f l) [] = nth r (f (nth k l d)) [].
Proof.
  revert k; induction l as [|a l IH]; intros k H Hk Hr; [simpl in Hk; lia|].
  cbn [flat_map]. destruct k as [|k].
  - rewrite app_nth1 by (rewrite H by (left; auto); lia). reflexivity.
  - rewrite app_nth2 by (rewrite H by (left; auto); lia). rewrite H by (left; auto).
    replace (3 * S k + r - 3)%nat with (3 * k + r)%nat by lia. cbn [nth]. apply IH; auto.
    + intros. apply H. right; auto.
    + simpl in Hk. lia.
Qed.
(** entry (i, j) of the block diagonal of the bodies' M *)
Lemma mget_world_M bs i j b : (i < 3 * length bs)%nat -> (j < 3 * length bs)%nat -> nth_error bs (i / 3) = Some b ->
  mget (world_M bs) i j = if Nat.eqb i j then (if Nat.eqb (i mod 3) 0 then b_inertia b else b_mass b) else 0.
Proof.
  intros Hi Hj Hb. rewrite world_M_rows. unfold mget.
  set (k := (i / 3)%nat) in *. set (r := (i mod 3)%nat).
  assert (Ei : i = (3 * k + r)%nat) by (apply Nat.div_mod; lia).
  assert (Hr : (r < 3)%nat) by (apply Nat.mod_upper_bound; lia).
  assert (Hk : (k < length bs)%nat) by lia.
  assert (Hc : (k < length (combine (seq 0 (length bs)) bs))%nat) by (rewrite combine_length, seq_length; lia).
  rewrite Ei at 1. rewrite (nth_flat_map3 _ _ _ _ (0%nat, b)); [|reflexivity|auto|auto].
  rewrite combine_nth by (now rewrite seq_length). rewrite seq_nth by auto. cbn [fst snd].
  rewrite (nth_error_nth _ _ _ Hb). unfold M_rows, b_M. cbn [map].
  assert (P : forall x : vecR, length x = 3%nat -> vget (row_put (vzeros (3 * length bs)) (3 * k) x) j =
     if (Nat.leb (3 * k) j && Nat.ltb j (3 * k + 3))%bool then vget x (j - 3 * k) else 0).
  { intros x Lx. rewrite vget_row_put by (rewrite vzeros_length, Lx; lia). rewrite Lx, vget_zeros. reflexivity. }
  change (0 + k)%nat with k.
  destruct r as [|[|[|r]]]; [| | |lia]; cbn [nth Nat.eqb]; rewrite P by reflexivity;
    (destruct (Nat.eqb_spec i j) as [E|E];
     [ destruct (Nat.leb_spec (3 * k) j), (Nat.ltb_spec j (3 * k + 3)); try lia; cbn [andb];
       match goal with |- context [vget _ ?d] => first [replace d with 0%nat by lia|replace d with 1%nat by lia|replace d with 2%nat by lia] end; reflexivity
     | destruct (Nat.leb_spec (3 * k) j), (Nat.ltb_spec j (3 * k + 3)); cbn [andb]; auto;
       assert (D : (j - 3 * k = 0 \/ j - 3 * k = 1 \/ j - 3 * k = 2)%nat) by lia;
       destruct D as [D|[D|D]]; rewrite D; try reflexivity; lia ]).
Qed.

Lemma mapi_from_map {A B C} (g : B -> C) (f : nat -> A -> B) l k : map g (mapi_from k f l) = mapi_from k (fun i a => g (f i a)) l.
Proof. revert k; induction l; intros k; simpl; f_equal; auto. Qed.
Lemma v3_at_mv_M bs x i b : length x = (3 * length bs)%nat -> nth_error bs i = Some b ->
  v3_at (mv (world_M bs) x) i = mass3 b (v3_at x i).
Proof.
  intros Hx Hb. rewrite mv_world_M by auto.
  assert (Hi : (i < length bs)%nat) by (apply nth_error_Some; congruence).
  rewrite (v3_at_cat3 _ i v3zero) by (rewrite mapi_length'; auto).
  pose proof (mapi_nth (fun i b => mass3 b (v3_at x i)) bs i) as E. rewrite Hb in E. cbn in E.
  apply nth_error_nth with (d := v3zero) in E. exact E.
Qed.
(** scalar products sum over the bodies *)
Definition sum3 (n : nat) (x y : vecR) : R := fold_right Rplus 0 (map (fun i => d3 (v3_at x i) (v3_at y i)) (seq 0 n)).
Lemma dot_sum3 n (x y : vecR) : length x = (3 * n)%nat -> length y = (3 * n)%nat -> dot x y = sum3 n x y.
Proof.
  intros Hx Hy. rewrite (cat3_at n x Hx), (cat3_at n y Hy) at 1. rewrite dot_cat3 by (now rewrite !map_length).
  unfold sum3. f_equal. generalize (seq 0 n). induction l; [reflexivity|]. simpl. f_equal; auto.
Qed.
Lemma cat3_zeros n s : cat3 (map (fun _ => (0, (0, 0))) (seq s n)) = (vzeros (3 * n) : vecR).
Proof.
  revert s; induction n as [|n IH]; intros s; [reflexivity|].
  replace (3 * S n)%nat with (S (S (S (3 * n)))) by lia. unfold vzeros in *. cbn [seq map repeat].
  unfold cat3 in *. cbn [flat_map v3list fst snd app]. rewrite IH. reflexivity.
Qed.
Lemma mass_quad_pos bs x :
  length x = (3 * length bs)%nat -> Forall (fun b => 0 < b_mass b /\ 0 < b_inertia b) bs ->
  x <> vzeros (length x) -> 0 < dot x (mv (world_M bs) x).
Proof.
  intros Hx Hpos Hne. set (n := length bs) in *.
  rewrite (dot_sum3 n) by (auto; rewrite mv_length; apply (wf_world_M bs)).
  unfold sum3.
  assert (P : forall i, (i < n)%nat -> 0 <= d3 (v3_at x i) (v3_at (mv (world_M bs) x) i) /\
              (d3 (v3_at x i) (v3_at (mv (world_M bs) x) i) = 0 -> v3_at x i = (0, (0, 0)))).
  { intros i Hi. assert (exists b, nth_error bs i = Some b) as [b Hb].
    { destruct (nth_error bs i) eqn:E; eauto. apply nth_error_None in E. lia. }
    rewrite (v3_at_mv_M bs x i b) by auto. rewrite Forall_forall in Hpos.
    destruct (Hpos b (nth_error_In _ _ Hb)) as [Hm HI]. destruct (v3_at x i) as [a [c d]]. unfold d3, mass3. cbn [fst snd].
    assert (0 <= a * (b_inertia b * a)) by nra. assert (0 <= c * (b_mass b * c)) by nra. assert (0 <= d * (b_mass b * d)) by nra.
    split; [lra|]. intros H2. 
    assert (Q : forall k z : R, 0 < k -> z * (k * z) = 0 -> z = 0).
    { intros k z Hk Hz. destruct (Req_dec z 0); auto. exfalso. assert (0 < z * z) by (destruct (Rlt_dec z 0); nra). nra. }
    assert (a = 0) by (apply (Q (b_inertia b)); lra). assert (c = 0) by (apply (Q (b_mass b)); lra).
    assert (d = 0) by (apply (Q (b_mass b)); lra). subst. reflexivity. }
  assert (G : forall l, (forall i, In i l -> (i < n)%nat) ->
     0 <= fold_right Rplus 0 (map (fun i => d3 (v3_at x i) (v3_at (mv (world_M bs) x) i)) l) /\
     (fold_right Rplus 0 (map (fun i => d3 (v3_at x i) (v3_at (mv (world_M bs) x) i)) l) = 0 ->
      forall i, In i l -> v3_at x i = (0, (0, 0)))).
  { induction l as [|i l IH]; intros Hl; [split; [simpl; lra|intros _ i []]|].
    destruct IH as [I1 I2]; [intros; apply Hl; right; auto|]. destruct (P i) as [P1 P2]; [apply Hl; left; auto|].
    cbn [map fold_right]. split; [lra|]. intros H0 j [Hj|Hj].
    - subst j. apply P2. lra.
    - apply I2; auto. lra. }
  destruct (G (seq 0 n)) as [G1 G2]; [intros i Hi; apply in_seq in Hi; lia|].
  destruct (Rle_lt_or_eq_dec _ _ G1) as [|E]; auto. exfalso. apply Hne.
  symmetry in E. specialize (G2 E). rewrite (cat3_at n x Hx) at 1. rewrite Hx.
  transitivity (cat3 (map (fun _ => (0, (0, 0))) (seq 0 n))).
  - f_equal. apply map_ext_in. intros i Hi. apply G2; auto.
  - apply cat3_zeros.
Qed.
