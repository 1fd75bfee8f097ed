(** Reading the screen of the breakout game *)
From Coq Require Import List Arith ZArith Lia Bool Reals Lra.
From Verif Require Import Num Tensor Breakout Screen ScreenSpec ResFacts RBase.
Import ListNotations.
Open Scope nat_scope.

Definition look (f : frame) (i j : nat) : nat := nth j (nth i f []) 0.
Definition dims (f : frame) : Prop := length f = 210 /\ Forall (fun r => length r = 160) f.

Lemma dims_row f i : dims f -> i < 210 -> length (nth i f []) = 160.
Proof. intros [L F] Hi. rewrite Forall_forall in F. apply F, nth_In. lia. Qed.
Lemma line_look f i : dims f -> i < 210 -> line f i = Ok (nth i f []).
Proof. intros [L F] Hi. unfold line. rewrite (nth_error_nth' f []) by lia. reflexivity. Qed.
Lemma pixel_look f i j : dims f -> i < 210 -> j < 160 -> pixel f i j = Ok (look f i j).
Proof.
  intros D Hi Hj. unfold pixel. rewrite line_look by auto. cbn [bind].
  rewrite (nth_error_nth' _ 0) by (rewrite dims_row; auto). reflexivity.
Qed.

Lemma map2_seq_length {A B} (g : nat -> A -> B) l s : length (map2 g (seq s (length l)) l) = length l.
Proof. revert s. induction l as [|a l IH]; intros s; cbn; [reflexivity|]. f_equal. apply IH. Qed.
Lemma map2_seq_nth {A B} (g : nat -> A -> B) l s i d d' :
  i < length l -> nth i (map2 g (seq s (length l)) l) d = g (s + i) (nth i l d').
Proof.
  revert s i. induction l as [|a l IH]; intros s i Hi; cbn in *; [lia|]. destruct i as [|i].
  - rewrite Nat.add_0_r. reflexivity.
  - rewrite (IH (S s) i) by lia. f_equal. lia.
Qed.

Definition boxed (tl br : nat * nat) (i j : nat) : bool :=
  (fst tl <=? i) && (i <? fst br + 1) && ((snd tl <=? j) && (j <? snd br + 1)).
Lemma remove_dims f tl br : dims f -> dims (remove_rect f tl br).
Proof.
  intros [L F]. split.
  - unfold remove_rect. rewrite map2_seq_length. exact L.
  - rewrite Forall_forall in *. intros r Hr. destruct (In_nth _ _ [] Hr) as (i & Hi & <-).
    unfold remove_rect in *. rewrite map2_seq_length in Hi. rewrite (map2_seq_nth _ f 0 i [] []) by exact Hi.
    pose proof (F _ (nth_In f [] Hi)) as E. destruct (_ && _); [|exact E]. rewrite map2_seq_length. exact E.
Qed.
Lemma remove_look f tl br i j : dims f -> i < 210 -> j < 160 ->
  look (remove_rect f tl br) i j = if boxed tl br i j then 0 else look f i j.
Proof.
  intros D Hi Hj. pose proof (dims_row f i D Hi) as Lr. destruct D as [L F]. unfold look, remove_rect, boxed.
  rewrite (map2_seq_nth _ f 0 i [] []) by lia. cbn [Nat.add]. destruct ((fst tl <=? i) && (i <? fst br + 1)); cbn [andb]; [|reflexivity].
  rewrite (map2_seq_nth _ (nth i f []) 0 j 0 0) by lia. reflexivity.
Qed.

(** ** argmax and argmin *)
Lemma first_true_at l i n : n < length l -> nth n l false = true -> (forall k, k < n -> nth k l false = false) -> first_true l i = i + n.
Proof.
  revert i n. induction l as [|b l IH]; intros i n Hn Ht Hf; cbn in Hn; [lia|]. cbn. destruct n as [|n]; cbn in Ht.
  - rewrite Ht. lia.
  - pose proof (Hf 0 ltac:(lia)) as E. cbn in E. rewrite E. rewrite (IH (S i) n); [lia|lia|exact Ht|]. intros k Hk. exact (Hf (S k) ltac:(lia)).
Qed.
Lemma first_true_none l i : (forall k, k < length l -> nth k l false = false) -> first_true l i = 0.
Proof.
  revert i. induction l as [|b l IH]; intros i Hf; cbn; [reflexivity|]. pose proof (Hf 0 ltac:(cbn; lia)) as E. cbn in E. rewrite E.
  apply IH. intros k Hk. exact (Hf (S k) ltac:(cbn; lia)).
Qed.
Lemma argmax_bool_at l n : n < length l -> nth n l false = true -> (forall k, k < n -> nth k l false = false) -> argmax_bool l = Ok n.
Proof. intros Hn Ht Hf. unfold argmax_bool. destruct l as [|b l]; [cbn in Hn; lia|]. rewrite (first_true_at _ 0 n); auto. Qed.
Lemma argmax_bool_none l : l <> [] -> (forall k, k < length l -> nth k l false = false) -> argmax_bool l = Ok 0.
Proof. intros Hl Hf. unfold argmax_bool. destruct l as [|b l]; [congruence|]. rewrite first_true_none; auto. Qed.

Lemma eqc_nth c l k : k < length l -> nth k (map (fun c' : nat => c' =? c) l) false = (nth k l 0 =? c).
Proof. intros Hk. rewrite (nth_indep _ false (0 =? c)) by (rewrite map_length; exact Hk). apply (map_nth (fun c' => c' =? c)). Qed.
Lemma eqc_neg_nth c l k : k < length l -> nth k (map negb (map (fun c' : nat => c' =? c) l)) false = negb (nth k l 0 =? c).
Proof.
  intros Hk. rewrite (nth_indep _ false (negb (0 =? c))) by (rewrite !map_length; exact Hk). rewrite map_map.
  apply (map_nth (fun c' => negb (c' =? c))).
Qed.
(** a run of colour [c] at the beginning of [l] *)
Lemma argmin_run c l n : n < length l -> (forall k, k < n -> nth k l 0 = c) -> nth n l 0 <> c ->
  argmin_bool (map (fun c' => c' =? c) l) = Ok n.
Proof.
  intros Hn Hr He. apply argmax_bool_at; rewrite ?map_length; [exact Hn| |].
  - rewrite eqc_neg_nth by exact Hn. apply negb_true_iff, Nat.eqb_neq, He.
  - intros k Hk. rewrite eqc_neg_nth by lia. rewrite (Hr k Hk), Nat.eqb_refl. reflexivity.
Qed.
Lemma argmin_full c l : l <> [] -> (forall k, k < length l -> nth k l 0 = c) -> argmin_bool (map (fun c' => c' =? c) l) = Ok 0.
Proof.
  intros Hl Hr. apply argmax_bool_none; [destruct l; cbn; congruence|]. rewrite !map_length. intros k Hk.
  rewrite eqc_neg_nth by exact Hk. rewrite (Hr k Hk), Nat.eqb_refl. reflexivity.
Qed.
Lemma argmax_color_at c l n : n < length l -> nth n l 0 = c -> (forall k, k < n -> nth k l 0 <> c) -> argmax_bool (map (fun c' => c' =? c) l) = Ok n.
Proof.
  intros Hn Ht Hf. apply argmax_bool_at; rewrite ?map_length; [exact Hn| |].
  - rewrite eqc_nth by exact Hn. apply Nat.eqb_eq, Ht.
  - intros k Hk. rewrite eqc_nth by lia. apply Nat.eqb_neq, Hf, Hk.
Qed.
Lemma argmax_color_none c l : l <> [] -> (forall k, k < length l -> nth k l 0 <> c) -> argmax_bool (map (fun c' => c' =? c) l) = Ok 0.
Proof.
  intros Hl Hf. apply argmax_bool_none; [destruct l; cbn; congruence|]. rewrite map_length. intros k Hk. rewrite eqc_nth by exact Hk. apply Nat.eqb_neq, Hf, Hk.
Qed.

Lemma argmax_keep l j b a' : (forall k, k < length l -> nth k l 0 <= b) -> argmax_from l j b a' = a'.
Proof.
  revert j b a'. induction l as [|a l IH]; intros j b a' H; cbn [argmax_from]; [reflexivity|]. pose proof (H 0 ltac:(cbn; lia)) as E. cbn in E.
  destruct (Nat.ltb_spec b a); [lia|]. apply IH. intros k Hk. exact (H (S k) ltac:(cbn; lia)).
Qed.
Lemma argmax_from_at l i best arg n : 
  (forall k, k < length l -> nth k l 0 <= nth n l 0) -> n < length l -> best < nth n l 0 ->
  (forall k, k < n -> nth k l 0 < nth n l 0) -> argmax_from l i best arg = i + n.
Proof.
  revert i best arg n. induction l as [|a l IH]; intros i best arg n Hm Hn Hb Hf; cbn in Hn; [lia|]. cbn [argmax_from].
  pose proof (argmax_keep l) as Keep.
  destruct n as [|n]; cbn [nth] in *.
  - destruct (Nat.ltb_spec best a); [|lia]. rewrite Keep; [lia|]. intros k Hk. exact (Hm (S k) ltac:(cbn; lia)).
  - assert (Ha : a < nth n l 0) by exact (Hf 0 ltac:(lia)).
    assert (G : forall b a', b < nth n l 0 -> argmax_from l (S i) b a' = i + S n).
    { intros b a' Hb'. rewrite (IH (S i) b a' n); [lia| |lia|exact Hb'|].
      - intros k Hk. exact (Hm (S k) ltac:(cbn; lia)).
      - intros k Hk. exact (Hf (S k) ltac:(lia)). }
    destruct (Nat.ltb_spec best a); apply G; lia.
Qed.
Lemma argmax_at l n : n < length l -> (forall k, k < length l -> nth k l 0 <= nth n l 0) -> (forall k, k < n -> nth k l 0 < nth n l 0) -> argmax l = Ok n.
Proof.
  intros Hn Hm Hf. destruct l as [|a l]; cbn in Hn; [lia|]. unfold argmax. f_equal. destruct n as [|n].
  - pose proof argmax_keep as Keep.
    apply Keep. intros k Hk. exact (Hm (S k) ltac:(cbn; lia)).
  - cbn [nth] in *. rewrite (argmax_from_at l 1 a 0 n); [lia| |lia|exact (Hf 0 ltac:(lia))|].
    + intros k Hk. exact (Hm (S k) ltac:(cbn; lia)).
    + intros k Hk. exact (Hf (S k) ltac:(lia)).
Qed.

Lemma nth_skipn {A} (l : list A) a k d : nth k (skipn a l) d = nth (a + k) l d.
Proof.
  revert a. induction l as [|x l IH]; intros [|a]; cbn; try reflexivity.
  - destruct k; reflexivity.
  - apply IH.
Qed.

(** ** the paddle *)
Section Read.
Variables (f : frame) (p : picture).
Hypothesis SH : shows f p.
Hypothesis RD : readable p.

Let D : dims f := conj (sh_height f p SH) (sh_width f p SH).
Notation x := (pc_paddle p). Notation w := (pc_width p).

Lemma red i j : i < 210 -> j < 160 ->
  (look f i j = 200 <-> inside (paddle_box p) i j \/ (exists b, In b (level p 0) /\ inside (block_box 0 b) i j) \/
     (exists b, pc_ball p = Some b /\ inside b i j) \/ inside stopper_box i j).
Proof.
  intros Hi Hj. pose proof (sh_red f p SH i j Hi Hj) as E. rewrite pixel_look in E by auto. rewrite <- E. split; congruence.
Qed.
(** on the paddle's line *)
Definition ball_on (j : nat) : Prop := exists b, pc_ball p = Some b /\ bx_top b <= 189 < bx_top b + bx_height b /\ bx_left b <= j < bx_left b + bx_width b.
Lemma red_line j : j < 160 -> (look f 189 j = 200 <-> x <= j < x + w \/ ball_on j \/ 152 <= j).
Proof.
  intros Hj. rewrite red by lia. unfold inside, paddle_box, block_box, stopper_box, ball_on; cbn [bx_top bx_left bx_height bx_width].
  split.
  - intros [H|[(b & _ & H)|[(b & Eb & H)|H]]]; [left; lia|lia|right; left; exists b; tauto|right; right; lia].
  - intros [H|[(b & Eb & H)|H]]; [left; lia|right; right; left; exists b; tauto|right; right; right; lia].
Qed.
Lemma dim_line j : j < 160 -> look f 189 j <= 200.
Proof. intros Hj. apply (sh_bright f p SH j). apply pixel_look; auto; lia. Qed.

Lemma ball_line j : ball_on j -> j < 152 -> x + w < j \/ (exists l, l + 3 < x /\ l <= j < l + 3 /\ (forall k, ball_on k -> l <= k < l + 3) /\ ball_on l).
Proof.
  intros (b & Eb & Hr & Hc) Hj. destruct (rd_ball p RD b Eb) as (_ & B0 & _ & _ & _ & _ & Bp & _ & Bl).
  destruct (Nat.lt_ge_cases (bx_left b) x) as [Hlt|Hge].
  - right. destruct (Bl Hr Hlt) as [W3 G]. exists (bx_left b). split; [exact G|]. split; [lia|]. split.
    + intros k (b' & Eb' & _ & Hk). rewrite Eb in Eb'. injection Eb' as <-. lia.
    + exists b. split; [exact Eb|]. split; [exact Hr|lia].
  - left. destruct (Nat.lt_ge_cases (x + w) j) as [|Hle]; [assumption|exfalso].
    apply (Bp 189 j); unfold inside; cbn [bx_top bx_left bx_height bx_width]; lia.
Qed.

Lemma paddle_found : find_paddle f = Ok ((189, x), (193, x + w)).
Proof.
  destruct (rd_paddle p RD) as ((W4 & W16) & Xw & Xe). unfold find_paddle, PADDLE_TOP_LINE. rewrite line_look by (auto; lia). cbn [bind].
  set (row := nth 189 f []). assert (Lr : length row = 160) by (apply dims_row; auto; lia).
  assert (Lk : forall k, nth k row 0 = look f 189 k) by reflexivity.
  assert (Redx : look f 189 x = 200) by (apply red_line; [lia|left; lia]).
  (** from [x] on the code finds the paddle's right end *)
  assert (Tail : (do k <- argmin_bool (map (fun c => c =? PADDLE_COLOR) (skipn x row));
                  let rgt := k + x in let rgt := if rgt =? x then SCREEN_WIDTH else rgt in
                  let rgt := Nat.min rgt (x + PADDLE_WIDTH) in Ok ((189, x), (189 + PADDLE_HEIGHT, rgt))) = Ok ((189, x), (193, x + w))).
  { destruct (Nat.eq_dec (x + w) 152) as [E|NE].
    - assert (w = 16) as E16 by lia. rewrite (argmin_full PADDLE_COLOR).
      + cbn [bind Nat.add]. rewrite Nat.eqb_refl. unfold SCREEN_WIDTH, PADDLE_WIDTH, PADDLE_HEIGHT. do 3 f_equal. lia.
      + intros E0. apply (f_equal (@length nat)) in E0. rewrite skipn_length in E0. cbn in E0. lia.
      + rewrite skipn_length. intros k Hk. rewrite nth_skipn, Lk. apply red_line; [lia|]. destruct (Nat.lt_ge_cases (x + k) 152); [left; lia|right; right; lia].
    - rewrite (argmin_run PADDLE_COLOR _ w).
      + cbn [bind]. replace (w + x =? x) with false by (symmetry; apply Nat.eqb_neq; lia). unfold PADDLE_WIDTH, PADDLE_HEIGHT. do 3 f_equal. lia.
      + rewrite skipn_length. lia.
      + intros k Hk. rewrite nth_skipn, Lk. apply red_line; [lia|left; lia].
      + rewrite nth_skipn, Lk. intros E. apply red_line in E; [|lia]. destruct E as [E|[E|E]]; [lia| |lia].
        destruct (ball_line _ E ltac:(lia)) as [H|(l & G & Hl & _)]; lia. }
  assert (NoBall : (forall j, j < x -> ~ ball_on j) -> argmax row = Ok x).
  { intros NB. apply argmax_at; [lia| |].
    - rewrite Lr. intros k Hk. rewrite !Lk, Redx. apply dim_line, Hk.
    - intros k Hk. rewrite !Lk, Redx. pose proof (dim_line k ltac:(lia)). assert (look f 189 k <> 200); [|lia]. intros E.
      apply red_line in E; [|lia]. destruct E as [E|[E|E]]; [lia|exact (NB k Hk E)|lia]. }
  assert (Case : (forall j, j < x -> ~ ball_on j) \/ exists l, l + 3 < x /\ (forall k, ball_on k -> l <= k < l + 3) /\ ball_on l).
  { assert (Dec : forall n, (forall j, j < n -> ~ ball_on j) \/ exists j, j < n /\ ball_on j).
    { assert (DB : forall j, ball_on j \/ ~ ball_on j).
      { intros j. unfold ball_on. destruct (pc_ball p) as [b|]; [|right; intros (b & E & _); discriminate].
        destruct (le_lt_dec (bx_top b) 189); [|right; intros (b' & E & H); injection E as <-; lia].
        destruct (le_lt_dec (bx_top b + bx_height b) 189); [right; intros (b' & E & H); injection E as <-; lia|].
        destruct (le_lt_dec (bx_left b) j); [|right; intros (b' & E & H); injection E as <-; lia].
        destruct (le_lt_dec (bx_left b + bx_width b) j); [right; intros (b' & E & H); injection E as <-; lia|].
        left. exists b. split; [reflexivity|lia]. }
      induction n as [|n [IH|(j & Hj & IH)]]; [left; intros; lia| |right; exists j; split; [lia|exact IH]].
      destruct (DB n) as [B|B]; [right; exists n; split; [lia|exact B]|left]. intros j Hj. destruct (Nat.eq_dec j n) as [->|]; [exact B|apply IH; lia]. }
    destruct (Dec x) as [H|(j & Hj & H)]; [left; exact H|right].
    destruct (ball_line j H ltac:(lia)) as [H'|(l & G & _ & A & B)]; [lia|]. exists l. auto. }
  destruct Case as [NB|(l & G & A & B)].
  - rewrite (NoBall NB). cbn [bind]. unfold BALL_WIDTH. rewrite pixel_look by (auto; lia). cbn [bind].
    rewrite (proj2 (red_line (x + 2 + 1) ltac:(lia))) by (left; lia). exact Tail.
  - assert (Ml : argmax row = Ok l).
    { apply argmax_at; [lia| |].
      - rewrite Lr. intros k Hk. rewrite !Lk, (proj2 (red_line l ltac:(lia))) by (right; left; exact B). apply dim_line, Hk.
      - intros k Hk. rewrite !Lk, (proj2 (red_line l ltac:(lia))) by (right; left; exact B). pose proof (dim_line k ltac:(lia)).
        assert (look f 189 k <> 200); [|lia]. intros E. apply red_line in E; [|lia]. destruct E as [E|[E|E]]; [lia|pose proof (A k E); lia|lia]. }
    rewrite Ml. cbn [bind]. unfold BALL_WIDTH. rewrite pixel_look by (auto; lia). cbn [bind].
    assert (Nr : look f 189 (l + 2 + 1) <> 200).
    { intros E. apply red_line in E; [|lia]. destruct E as [E|[E|E]]; [lia|pose proof (A _ E); lia|lia]. }
    unfold PADDLE_COLOR at 1. rewrite (proj2 (Nat.eqb_neq _ _) Nr).
    rewrite (argmax_at (skipn (l + 2 + 1) row) (x - (l + 3))).
    + cbn [bind]. replace (x - (l + 3) + l + 2 + 1) with x by lia. exact Tail.
    + rewrite skipn_length. lia.
    + rewrite skipn_length. intros k Hk. rewrite !nth_skipn, !Lk. replace (l + 2 + 1 + (x - (l + 3))) with x by lia. rewrite Redx. apply dim_line. lia.
    + intros k Hk. rewrite !nth_skipn, !Lk. replace (l + 2 + 1 + (x - (l + 3))) with x by lia. rewrite Redx.
      pose proof (dim_line (l + 2 + 1 + k) ltac:(lia)). assert (look f 189 (l + 2 + 1 + k) <> 200); [|lia]. intros E.
      apply red_line in E; [|lia]. destruct E as [E|[E|E]]; [lia|pose proof (A _ E); lia|lia].
Qed.
End Read.

(** ** the blocks *)
Definition block_corners (top : nat) (b : nat * nat) : corners := ((top, fst b), (top + 6, snd b)).
Definition in_block (top : nat) (b : nat * nat) (i j : nat) : Prop := top <= i < top + 6 /\ fst b <= j < snd b.
Definition cleared (bs : nat -> nat -> Prop) (g g' : frame) : Prop :=
  dims g' /\ forall i j, i < 210 -> j < 160 -> (bs i j -> look g' i j = 0) /\ (~ bs i j -> look g' i j = look g i j).

Lemma spread_lo lo bs b : spread lo bs -> In b bs -> lo < fst b /\ fst b < snd b /\ snd b < 160.
Proof.
  revert lo. induction bs as [|(a, c) bs IH]; intros lo HS Hin; [destruct Hin|]. cbn in HS. destruct HS as (H1 & H2 & H3 & HS).
  destruct Hin as [<-|Hin]; [cbn; lia|]. pose proof (IH c HS Hin). lia.
Qed.

Lemma blocks_found fuel top color : color <> 0 -> top + 6 <= 210 -> forall bs lo g acc,
  dims g -> spread lo bs -> length bs < fuel ->
  (forall j, j < 160 -> (look g top j = color <-> exists b, In b bs /\ fst b <= j < snd b)) ->
  exists g', find_blocks fuel g top color acc = Ok (g', acc ++ map (block_corners top) bs) /\
             cleared (fun i j => exists b, In b bs /\ in_block top b i j) g g'.
Proof.
  intros Hc Ht. induction fuel as [|fuel IH]; intros bs lo g acc D HS Hf Hl; [lia|].
  cbn [find_blocks]. rewrite line_look by (auto; lia). cbn [bind]. set (row := nth top g []).
  assert (Lr : length row = 160) by (apply dims_row; auto; lia). assert (Lk : forall k, nth k row 0 = look g top k) by reflexivity.
  assert (Nr : row <> []) by (intros E; rewrite E in Lr; discriminate).
  destruct bs as [|(a, b) bs].
  - rewrite argmax_color_none; [|exact Nr|].
    + cbn [bind]. exists g. rewrite app_nil_r. split; [reflexivity|]. split; [exact D|]. intros i j _ _. split; [intros (b & [] & _)|reflexivity].
    + rewrite Lr. intros k Hk. rewrite Lk. intros E. apply Hl in E; [|exact Hk]. destruct E as (b & [] & _).
  - cbn in HS. destruct HS as (H1 & H2 & H3 & HS).
    assert (After : forall c, In c bs -> b < fst c /\ fst c < snd c /\ snd c < 160) by (intros c; apply spread_lo; exact HS).
    rewrite (argmax_color_at color row a).
    2: lia.
    2: { rewrite Lk. apply Hl; [lia|]. exists (a, b). cbn. split; [auto|lia]. }
    2: { intros k Hk. rewrite Lk. intros E. apply Hl in E; [|lia]. destruct E as (c & [<-|Hc'] & Hk'); cbn in *; [lia|]. pose proof (After c Hc'). lia. }
    cbn [bind]. replace (a =? 0) with false by (symmetry; apply Nat.eqb_neq; lia).
    rewrite (argmin_run color (skipn a row) (b - a)).
    2: rewrite skipn_length; lia.
    2: { intros k Hk. rewrite nth_skipn, Lk. apply Hl; [lia|]. exists (a, b). cbn. split; [auto|lia]. }
    2: { rewrite nth_skipn, Lk. replace (a + (b - a)) with b by lia. intros E. apply Hl in E; [|lia].
         destruct E as (c & [<-|Hc'] & Hk'); cbn in *; [lia|]. pose proof (After c Hc'). lia. }
    cbn [bind fst snd]. replace (b - a + a) with b by lia. unfold BLOCK_HEIGHT.
    set (g1 := remove_rect g (top, a) (top + 6 - 1, b - 1)).
    assert (D1 : dims g1) by (apply remove_dims; exact D).
    assert (L1 : forall i j, i < 210 -> j < 160 -> (in_block top (a, b) i j -> look g1 i j = 0) /\ (~ in_block top (a, b) i j -> look g1 i j = look g i j)).
    { intros i j Hi Hj. unfold g1. rewrite remove_look by auto. unfold boxed, in_block. cbn [fst snd]. split; intros H.
      - rewrite (proj2 (Nat.leb_le top i)), (proj2 (Nat.leb_le a j)), (proj2 (Nat.ltb_lt i _)), (proj2 (Nat.ltb_lt j _)) by lia. reflexivity.
      - destruct (Nat.leb_spec top i); cbn [andb]; [|reflexivity]. destruct (Nat.ltb_spec i (top + 6 - 1 + 1)); cbn [andb]; [|reflexivity].
        destruct (Nat.leb_spec a j); cbn [andb]; [|reflexivity]. destruct (Nat.ltb_spec j (b - 1 + 1)); cbn [andb]; [|reflexivity]. exfalso. apply H. lia. }
    assert (Hl1 : forall j, j < 160 -> (look g1 top j = color <-> exists c, In c bs /\ fst c <= j < snd c)).
    { intros j Hj. destruct (L1 top j ltac:(lia) Hj) as [La Lb]. destruct (le_lt_dec a j) as [Ha|Ha]; [destruct (le_lt_dec b j) as [Hb|Hb]|].
      - rewrite Lb by (unfold in_block; cbn; lia). rewrite Hl by exact Hj. split.
        + intros (c & [<-|Hc'] & Hk); cbn in *; [lia|]. exists c. auto.
        + intros (c & Hc' & Hk). exists c. cbn. auto.
      - rewrite La by (unfold in_block; cbn; lia). split; [intros E; congruence|]. intros (c & Hc' & Hk). pose proof (After c Hc'). lia.
      - rewrite Lb by (unfold in_block; cbn; lia). rewrite Hl by exact Hj. split.
        + intros (c & [<-|Hc'] & Hk); cbn in *; [lia|]. exists c. auto.
        + intros (c & Hc' & Hk). exists c. cbn. auto. }
    cbn in Hf. destruct (IH bs b g1 (acc ++ [((top, a), (top + 6, b))]) D1 HS ltac:(lia) Hl1) as (g' & E & D' & L'). exists g'. split.
    + rewrite E. f_equal. f_equal. rewrite <- app_assoc. reflexivity.
    + split; [exact D'|]. intros i j Hi Hj. destruct (L' i j Hi Hj) as [La Lb]. destruct (L1 i j Hi Hj) as [L1a L1b]. split.
      * intros (c & [<-|Hc'] & Hk); [|apply La; exists c; auto].
        assert (Z1 : look g1 i j = 0) by (apply L1a, Hk).
        destruct (le_lt_dec 210 i); [lia|]. assert (Dc : (exists c, In c bs /\ in_block top c i j) \/ ~ (exists c, In c bs /\ in_block top c i j)).
        { right. intros (c & Hc' & Hk'). pose proof (After c Hc'). unfold in_block in *. cbn in *. lia. }
        destruct Dc as [Dc|Dc]; [apply La, Dc|]. rewrite (Lb Dc). exact Z1.
      * intros Hn. rewrite Lb; [|intros (c & Hc' & Hk); apply Hn; exists c; cbn; auto]. apply L1b. intros Hk. apply Hn. exists (a, b). cbn. auto.
Qed.

Lemma levels_found fuel : forall colors lv i g acc, length lv = length colors -> 57 + 6 * (i + length colors) <= 210 -> dims g ->
  Forall (fun c => c <> 0) colors -> Forall (spread 0) lv -> Forall (fun l => length l < fuel) lv ->
  (forall k j, k < length colors -> j < 160 -> (look g (57 + 6 * (i + k)) j = nth k colors 0 <-> exists b, In b (nth k lv []) /\ fst b <= j < snd b)) ->
  exists g', find_levels fuel g i colors acc = Ok (g', acc ++ concat (map (fun k => map (block_corners (57 + 6 * (i + k))) (nth k lv [])) (seq 0 (length lv)))) /\
             cleared (fun r j => exists k b, k < length lv /\ In b (nth k lv []) /\ in_block (57 + 6 * (i + k)) b r j) g g'.
Proof.
  induction colors as [|color colors IH]; intros lv i g acc HL Hrows D Hc HS Hf Hl.
  - destruct lv; [|discriminate]. exists g. cbn. rewrite app_nil_r. split; [reflexivity|]. split; [exact D|]. intros r j _ _. split; [intros (k & b & H & _); lia|reflexivity].
  - destruct lv as [|bs lv]; [discriminate|]. cbn in HL. inversion_clear Hc. inversion_clear HS as [|? ? S0 S1]. inversion_clear Hf. cbn [find_levels]. cbn [length] in Hrows.
    unfold BLOCKS_TOP, BLOCK_HEIGHT at 1. replace (57 + i * 6) with (57 + 6 * i) by lia.
    destruct (blocks_found fuel (57 + 6 * i) color ltac:(assumption) ltac:(lia) bs 0 g acc D S0 ltac:(assumption)) as (g1 & E1 & D1 & L1).
    { intros j Hj. pose proof (Hl 0 j ltac:(cbn; lia) Hj) as H'. cbn [nth] in H'. rewrite Nat.add_0_r in H'. exact H'. }
    rewrite E1. cbn [bind fst snd].
    destruct (IH lv (S i) g1 (acc ++ map (block_corners (57 + 6 * i)) bs) ltac:(lia) ltac:(lia) D1 ltac:(assumption) S1 ltac:(assumption)) as (g' & E2 & D2 & L2).
    { intros k j Hk Hj. pose proof (Hl (S k) j ltac:(cbn; lia) Hj) as H'. cbn [nth] in H'. replace (S i + k) with (i + S k) by lia. rewrite <- H'.
      destruct (L1 (57 + 6 * (i + S k)) j ltac:(lia) Hj) as [_ L]. rewrite L; [reflexivity|]. intros (b & _ & Hb). unfold in_block in Hb. lia. }
    exists g'. split.
    + rewrite E2. f_equal. f_equal. rewrite <- app_assoc. f_equal. cbn [length seq map concat nth]. rewrite Nat.add_0_r. f_equal.
      rewrite <- seq_shift, map_map. f_equal. apply map_ext. intros k. cbn [nth]. replace (S i + k) with (i + S k) by lia. reflexivity.
    + split; [exact D2|]. intros r j Hr Hj. destruct (L1 r j Hr Hj) as [L1a L1b]. destruct (L2 r j Hr Hj) as [L2a L2b]. split.
      * intros (k & b & Hk & Hb & Hin). destruct k as [|k]; cbn [nth length] in *.
        -- rewrite Nat.add_0_r in Hin. rewrite L2b; [apply L1a; exists b; auto|]. intros (k' & b' & _ & _ & Hin'). unfold in_block in *. lia.
        -- apply L2a. exists k, b. split; [lia|]. split; [exact Hb|]. replace (S i + k) with (i + S k) by lia. exact Hin.
      * intros Hn. rewrite L2b; [apply L1b|].
        -- intros (b & Hb & Hin). apply Hn. exists 0, b. cbn. rewrite Nat.add_0_r. split; [lia|auto].
        -- intros (k & b & Hk & Hb & Hin). apply Hn. exists (S k), b. cbn [nth length]. split; [lia|]. split; [exact Hb|]. replace (i + S k) with (S i + k) by lia. exact Hin.
Qed.

(** ** the ball *)
Lemma find_ball_skip h l1 l2 : dims h -> (forall i j, In (i, j) l1 -> i < 210 /\ j < 160 /\ look h i j <> 200) -> find_ball h (l1 ++ l2) = find_ball h l2.
Proof.
  intros D. induction l1 as [|(i, j) l1 IH]; intros H; [reflexivity|]. cbn [app find_ball].
  destruct (H i j ltac:(cbn; auto)) as (Hi & Hj & Hn). rewrite pixel_look by auto. cbn [bind]. unfold BALL_COLOR at 1. rewrite (proj2 (Nat.eqb_neq _ _) Hn).
  apply IH. intros i' j' Hin. apply H. cbn. auto.
Qed.
Lemma list_prod_app {A B} (l1 l2 : list A) (l : list B) : list_prod (l1 ++ l2) l = list_prod l1 l ++ list_prod l2 l.
Proof. induction l1 as [|a l1 IH]; cbn; [reflexivity|]. rewrite IH, app_assoc. reflexivity. Qed.
Lemma list_prod_cons {A B} (a : A) l (l' : list B) : list_prod (a :: l) l' = map (fun y => (a, y)) l' ++ list_prod l l'.
Proof. reflexivity. Qed.
Lemma cells_split t l : t < 210 -> l < 160 -> exists l1 l2, screen_cells = l1 ++ (t, l) :: l2 /\
  forall i j, In (i, j) l1 -> i < 210 /\ j < 160 /\ (i < t \/ (i = t /\ j < l)).
Proof.
  intros Ht Hl. unfold screen_cells, SCREEN_HEIGHT, SCREEN_WIDTH.
  replace (seq 0 210) with (seq 0 t ++ t :: seq (S t) (210 - t - 1)).
  2: { change (t :: seq (S t) (210 - t - 1)) with (seq t (S (210 - t - 1))). rewrite <- (seq_app t _ 0). f_equal. lia. }
  assert (E160 : map (fun y => (t, y)) (seq 0 160) = map (fun y => (t, y)) (seq 0 l) ++ (t, l) :: map (fun y => (t, y)) (seq (S l) (160 - l - 1))).
  { change ((t, l) :: map (fun y => (t, y)) (seq (S l) (160 - l - 1))) with (map (fun y => (t, y)) (seq l (S (160 - l - 1)))).
    rewrite <- map_app, <- (seq_app l _ 0). do 2 f_equal. lia. }
  rewrite list_prod_app, list_prod_cons, E160.
  exists (list_prod (seq 0 t) (seq 0 160) ++ map (fun y => (t, y)) (seq 0 l)). eexists. split.
  - rewrite <- !app_assoc. cbn [app]. reflexivity.
  - intros i j Hin. apply in_app_iff in Hin. destruct Hin as [Hin|Hin].
    + apply in_prod_iff in Hin. destruct Hin as [H1 H2]. apply in_seq in H1, H2. lia.
    + apply in_map_iff in Hin. destruct Hin as (y & E & Hy). apply in_seq in Hy. injection E as <- <-. lia.
Qed.
Lemma mapM_column (h : frame) j : Forall (fun r => length r = 160) h -> j < 160 ->
  mapM (fun r : list nat => match nth_error r j with Some c => Ok c | None => Err EIndex end) h = Ok (map (fun r => nth j r 0) h).
Proof.
  intros F Hj. induction F as [|r h Hr F IH]; cbn; [reflexivity|]. rewrite (nth_error_nth' r 0) by lia. cbn [bind]. rewrite IH. reflexivity.
Qed.
Lemma column_look h i j : dims h -> i <= 210 -> j < 160 -> exists col, column_from h i j = Ok col /\ length col = 210 - i /\ forall k, k < 210 - i -> nth k col 0 = look h (i + k) j.
Proof.
  intros [L F] Hi Hj. unfold column_from. rewrite mapM_column; [|apply Forall_forall; intros r Hr; rewrite Forall_forall in F; apply F; rewrite <- (firstn_skipn i h); apply in_or_app; auto|exact Hj].
  eexists. split; [reflexivity|]. rewrite map_length, skipn_length, L. split; [reflexivity|]. intros k Hk.
  rewrite (nth_indep _ 0 (nth j [] 0)) by (rewrite map_length, skipn_length; lia). rewrite (map_nth (fun r => nth j r 0)), nth_skipn. reflexivity.
Qed.

Lemma ball_found h b : dims h -> 0 < bx_height b -> 0 < bx_width b -> bx_top b + bx_height b < 210 -> bx_left b + bx_width b < 160 ->
  (forall i j, i < 210 -> j < 160 -> (look h i j = 200 <-> inside b i j)) ->
  find_ball h screen_cells = Ok (Some ((bx_top b, bx_left b), (bx_height b + bx_top b, bx_width b + bx_left b))).
Proof.
  intros D H0 W0 HT HW HR. destruct b as [t l hh ww]; cbn [bx_top bx_left bx_height bx_width] in *.
  destruct (cells_split t l ltac:(lia) ltac:(lia)) as (l1 & l2 & E & Hl1). rewrite E.
  rewrite find_ball_skip; [|exact D|].
  2: { intros i j Hin. destruct (Hl1 i j Hin) as (Hi & Hj & Ho). split; [exact Hi|]. split; [exact Hj|]. intros Er. apply HR in Er; auto.
       unfold inside in Er; cbn in Er. lia. }
  cbn [find_ball]. rewrite pixel_look by (auto; lia). cbn [bind]. rewrite (proj2 (HR t l ltac:(lia) ltac:(lia))) by (unfold inside; cbn; lia).
  change (200 =? BALL_COLOR) with true. cbn iota. rewrite line_look by (auto; lia). cbn [bind].
  pose proof (dims_row h t D ltac:(lia)) as Lr.
  rewrite (argmin_run BALL_COLOR (skipn l (nth t h [])) ww).
  2: rewrite skipn_length; lia.
  2: { intros k Hk. rewrite nth_skipn. apply (HR t (l + k)); [lia|lia|]. unfold inside; cbn; lia. }
  2: { rewrite nth_skipn. intros Er. apply (HR t (l + ww)) in Er; [|lia|lia]. unfold inside in Er; cbn in Er. lia. }
  cbn [bind]. destruct (column_look h t l D ltac:(lia) ltac:(lia)) as (col & Ec & Lc & Nc). rewrite Ec. cbn [bind].
  rewrite (argmin_run BALL_COLOR col hh).
  2: lia.
  2: { intros k Hk. rewrite Nc by lia. apply HR; [lia|lia|]. unfold inside; cbn; lia. }
  2: { rewrite Nc by lia. intros Er. apply HR in Er; [|lia|lia]. unfold inside in Er; cbn in Er. lia. }
  cbn [bind]. reflexivity.
Qed.
Lemma no_ball h : dims h -> (forall i j, i < 210 -> j < 160 -> look h i j <> 200) -> find_ball h screen_cells = Ok None.
Proof.
  intros D HR. rewrite <- (app_nil_r screen_cells). rewrite find_ball_skip; [reflexivity|exact D|]. intros i j Hin.
  unfold screen_cells, SCREEN_HEIGHT, SCREEN_WIDTH in Hin. apply in_prod_iff in Hin. destruct Hin as [H1 H2]. apply in_seq in H1, H2.
  split; [lia|]. split; [lia|]. apply HR; lia.
Qed.

(** ** the whole screen *)
Lemma boxed_out tl br i j : boxed tl br i j = true <-> fst tl <= i <= fst br /\ snd tl <= j <= snd br.
Proof. unfold boxed. rewrite !andb_true_iff, !Nat.leb_le, !Nat.ltb_lt. lia. Qed.

Lemma corners_read top lft h w : corner_params (T := R) ((top, lft), (top + h, lft + w)) = (centre (mkBox top lft h w), size (mkBox top lft h w)).
Proof.
  unfold corner_params, get_pos_dims, centre, size, ofn. cbn [fst snd bx_top bx_left bx_height bx_width]. rnum.
  rewrite <- !INR_IZR_INZ, !plus_INR. f_equal; (f_equal; [lra|f_equal; lra]).
Qed.
Lemma corners_read' top lft h w : corner_params (T := R) ((top, lft), (h + top, w + lft)) = (centre (mkBox top lft h w), size (mkBox top lft h w)).
Proof. rewrite (Nat.add_comm h), (Nat.add_comm w). apply corners_read. Qed.

Definition ball_read (b : option box) : list R * R :=
  match b with
  | Some b => (centre b, Rmin (Rmin (INR (bx_width b)) (INR (bx_height b)) / 2) 1)
  | None => ([80; 21000]%R, 1%R)
  end.
Lemma nmin_Rmin a b : nmin (T := R) a b = Rmin a b.
Proof. unfold nmin. rnum. unfold Rmin. destruct (Rltb_spec b a), (Rle_dec a b); try lra; reflexivity. Qed.

Lemma screen_read f p fuel : shows f p -> readable p -> Forall (fun l => length l < fuel) (pc_blocks p) ->
  extract_params fuel f = Ok ((centre (paddle_box p), size (paddle_box p)), map (fun b => (centre b, size b)) (all_blocks p), ball_read (pc_ball p)).
Proof.
  intros SH RD Hfuel. assert (D : dims f) by exact (conj (sh_height f p SH) (sh_width f p SH)).
  destruct (rd_paddle p RD) as ((W4 & W16) & Xw & _). destruct (rd_levels p RD) as [L6 HS].
  unfold extract_params. rewrite (paddle_found f p SH RD). cbn [bind fst snd].
  set (f1 := remove_rect f (189, pc_paddle p) (193, pc_paddle p + pc_width p)).
  assert (D1 : dims f1) by (apply remove_dims, D).
  assert (R1 : forall i j, i < 210 -> j < 160 -> (189 <= i <= 193 /\ pc_paddle p <= j <= pc_paddle p + pc_width p -> look f1 i j = 0) /\
                (~ (189 <= i <= 193 /\ pc_paddle p <= j <= pc_paddle p + pc_width p) -> look f1 i j = look f i j)).
  { intros i j Hi Hj. unfold f1. rewrite remove_look by auto. destruct (boxed _ _ i j) eqn:E.
    - apply boxed_out in E. cbn [fst snd] in E. split; [reflexivity|intros H; contradiction].
    - split; [|reflexivity]. intros H. assert (boxed (189, pc_paddle p) (193, pc_paddle p + pc_width p) i j = true) by (apply boxed_out; exact H). congruence. }
  destruct (levels_found fuel BLOCK_COLORS (pc_blocks p) 0 f1 []) as (g & Eg & Dg & Lg).
  { rewrite L6. reflexivity. } { cbn. lia. } { exact D1. } { repeat constructor; discriminate. } { exact HS. } { exact Hfuel. }
  { intros k j Hk Hj. cbn [BLOCK_COLORS length] in Hk. change (0 + k) with k. destruct (R1 (57 + 6 * k) j ltac:(lia) Hj) as [_ R]. rewrite R by lia.
    destruct k as [|k].
    - change (57 + 6 * 0) with 57. change (nth 0 BLOCK_COLORS 0) with 200. rewrite (red f p SH) by lia.
      unfold inside, paddle_box, block_box, stopper_box; cbn [bx_top bx_left bx_height bx_width]. split.
      + intros [H|[(b & Hb & H)|[(b & Hb & H)|H]]]; [lia| | |lia].
        * exists b. split; [exact Hb|]. lia.
        * destruct (rd_ball p RD b Hb) as (_ & _ & _ & _ & N57 & _). lia.
      + intros (b & Hb & H). right. left. exists b. split; [exact Hb|]. lia.
    - pose proof (sh_level f p SH (S k) j ltac:(lia) Hj) as E. rewrite pixel_look in E by (auto; lia).
      change (nth (S k) BLOCK_COLORS 0) with (level_color (S k)). unfold level in E. rewrite <- E. split; congruence. }
  rewrite Eg. cbn [bind fst snd app].
  unfold STOPPER_LINE, STOPPER_WIDTH, STOPPER_HEIGHT, SCREEN_WIDTH. change (189 + 6 - 1) with 194. change (160 - 8) with 152.
  set (h := remove_rect g (189, 152) (194, 160)). assert (Dh : dims h) by (apply remove_dims, Dg).
  (** what is left is the ball *)
  assert (Left : forall i j, i < 210 -> j < 160 -> (look h i j = 200 <-> exists b, pc_ball p = Some b /\ inside b i j)).
  { intros i j Hi Hj. unfold h. rewrite remove_look by auto. destruct (boxed (189, 152) (194, 160) i j) eqn:Eb.
    - apply boxed_out in Eb. cbn [fst snd] in Eb. split; [discriminate|]. intros (b & Hb & Hin). exfalso.
      destruct (rd_ball p RD b Hb) as (_ & _ & _ & _ & _ & _ & _ & Bs & _). apply (Bs i j Hin). unfold inside, stopper_box; cbn. lia.
    - assert (Nst : ~ (189 <= i <= 194 /\ 152 <= j <= 160)) by (intros H; assert (boxed (189, 152) (194, 160) i j = true) by (apply boxed_out; exact H); congruence).
      pose proof (Lg i j Hi Hj) as Lg0. rewrite L6 in Lg0.
      set (P := exists k b, k < 6 /\ In b (nth k (pc_blocks p) []) /\ in_block (57 + 6 * k) b i j).
      assert (Lg' : (P -> look g i j = 0) /\ (~ P -> look g i j = look f1 i j)) by exact Lg0. clear Lg0. destruct Lg' as [Lg1 Lg2]. destruct (R1 i j Hi Hj) as [R1a R1b]. unfold P in *. clear P.
      assert (Dec : (exists k b, k < 6 /\ In b (nth k (pc_blocks p) []) /\ in_block (57 + 6 * k) b i j) \/ ~ (exists k b, k < 6 /\ In b (nth k (pc_blocks p) []) /\ in_block (57 + 6 * k) b i j)).
      { assert (DL : forall l k, (exists b, In b l /\ in_block (57 + 6 * k) b i j) \/ ~ (exists b, In b l /\ in_block (57 + 6 * k) b i j)).
        { intros l k. induction l as [|c l IH]; [right; intros (b & [] & _)|]. destruct IH as [(b & Hb & H)|IH]; [left; exists b; cbn; auto|].
          assert (Dc : in_block (57 + 6 * k) c i j \/ ~ in_block (57 + 6 * k) c i j) by (unfold in_block; lia).
          destruct Dc as [Dc|Dc]; [left; exists c; cbn; auto|right]. intros (b & [<-|Hb] & H); [contradiction|]. apply IH. exists b. auto. }
        assert (DN : forall n, (exists k b, k < n /\ In b (nth k (pc_blocks p) []) /\ in_block (57 + 6 * k) b i j) \/ ~ (exists k b, k < n /\ In b (nth k (pc_blocks p) []) /\ in_block (57 + 6 * k) b i j)).
        { induction n as [|n [(k & b & Hk & H)|IH]]; [right; intros (k & b & H & _); lia|left; exists k, b; split; [lia|exact H]|].
          destruct (DL (nth n (pc_blocks p) []) n) as [(b & H)|Hn]; [left; exists n, b; split; [lia|exact H]|right]. intros (k & b & Hk & Hb & H).
          destruct (Nat.eq_dec k n) as [->|]; [apply Hn; exists b; auto|]. apply IH. exists k, b. split; [lia|auto]. }
        apply DN. }
      assert (Bd : forall b k c, pc_ball p = Some b -> inside b i j -> k < 6 -> In c (nth k (pc_blocks p) []) -> in_block (57 + 6 * k) c i j -> False).
      { intros b k c Hb Hin Hk Hc Hic. destruct (rd_ball p RD b Hb) as (_ & _ & _ & _ & _ & Bb & _). apply (Bb k c Hk Hc i j Hin).
        unfold in_block in Hic. unfold inside, block_box; cbn. lia. }
      destruct Dec as [Dc|Dc].
      + rewrite (Lg1 Dc). split; [discriminate|]. intros (b & Hb & Hin). exfalso. destruct Dc as (k & c & Hk & Hc & Hic). exact (Bd b k c Hb Hin Hk Hc Hic).
      + rewrite (Lg2 Dc). assert (Dp : (189 <= i <= 193 /\ pc_paddle p <= j <= pc_paddle p + pc_width p) \/ ~ (189 <= i <= 193 /\ pc_paddle p <= j <= pc_paddle p + pc_width p)) by lia.
        destruct Dp as [Dp|Dp].
        * rewrite (R1a Dp). split; [discriminate|]. intros (b & Hb & Hin). exfalso. destruct (rd_ball p RD b Hb) as (_ & _ & _ & _ & _ & _ & Bp & _).
          apply (Bp i j Hin). unfold inside; cbn. lia.
        * rewrite (R1b Dp). rewrite (red f p SH) by auto. split; [|intros H; right; right; left; exact H].
          intros [H|[(b & Hb & H)|[H|H]]]; [|exfalso|exact H|].
          -- exfalso. apply Dp. unfold inside, paddle_box in H; cbn in H. lia.
          -- apply Dc. exists 0, b. split; [lia|]. split; [exact Hb|]. unfold inside, block_box in H; cbn in H. unfold in_block. destruct b; cbn in *. lia.
          -- exfalso. apply Nst. unfold inside, stopper_box in H; cbn in H. lia. }
  assert (EB : find_ball h screen_cells = Ok (match pc_ball p with Some b => Some ((bx_top b, bx_left b), (bx_height b + bx_top b, bx_width b + bx_left b)) | None => None end)).
  { destruct (pc_ball p) as [b|] eqn:Eb.
    - destruct (rd_ball p RD b Eb) as (H0 & W0 & HT & HW & _). apply ball_found; auto. intros i j Hi Hj. rewrite (Left i j Hi Hj). split.
      + intros (b' & E & H). injection E as <-. exact H.
      + intros H. exists b. auto.
    - apply no_ball; [exact Dh|]. intros i j Hi Hj E. apply Left in E; auto. destruct E as (b & E & _). discriminate. }
  rewrite EB. cbn [bind]. f_equal. f_equal; [f_equal|].
  - apply (corners_read 189 (pc_paddle p) 4 (pc_width p)).
  - rewrite concat_map, map_map. unfold all_blocks. rewrite L6. rewrite flat_map_concat_map, concat_map, map_map. f_equal. apply map_ext_in. intros k Hk. apply in_seq in Hk.
    rewrite !map_map. apply map_ext_in. intros c Hc. unfold block_corners, block_box.
    assert (Hc' : fst c < snd c).
    { rewrite Forall_forall in HS. assert (In (nth k (pc_blocks p) []) (pc_blocks p)) by (apply nth_In; lia). exact (proj1 (proj2 (spread_lo 0 _ c (HS _ H) Hc))). }
    rewrite <- corners_read. do 3 f_equal. lia.
  - destruct (pc_ball p) as [[t l hh ww]|]; cbn [ball_of ball_read bx_top bx_left bx_height bx_width].
    + rewrite corners_read'. cbn [fst snd size nth bx_width bx_height]. rewrite !nmin_Rmin. rnum. reflexivity.
    + unfold ofn, SCREEN_WIDTH, SCREEN_HEIGHT. rnum. do 2 f_equal. replace (Z.of_nat 160) with 160%Z by reflexivity. lra.
Qed.
