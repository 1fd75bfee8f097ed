(** Drawing scenes of the breakout game; when the reader returns *)
From Coq Require Import List Arith ZArith Lia Bool Reals Lra.
From Verif Require Import Num Tensor Breakout Screen ScreenSpec ResFacts RBase ScreenFacts.
Import ListNotations.
Open Scope nat_scope.

Lemma Ok_inj {A} (a b : A) : Ok a = Ok b -> a = b.
Proof. congruence. Qed.
Definition insideb (b : box) (i j : nat) : bool :=
  (bx_top b <=? i) && (i <? bx_top b + bx_height b) && ((bx_left b <=? j) && (j <? bx_left b + bx_width b)).
Lemma insideb_spec b i j : insideb b i j = true <-> inside b i j.
Proof. unfold insideb, inside. rewrite !andb_true_iff, !Nat.leb_le, !Nat.ltb_lt. tauto. Qed.

(** walls (142), the six levels, and in front of them everything red *)
Definition draw_level (p : picture) (i j : nat) : nat :=
  match find (fun k => existsb (fun b => insideb (block_box k b) i j) (level p k)) (seq 0 6) with
  | Some k => level_color k
  | None => if (j <? 8) || (152 <=? j) || (i <? 31) then 142 else 0
  end.
Definition draw_pixel (p : picture) (i j : nat) : nat :=
  if insideb (paddle_box p) i j || insideb stopper_box i j || match pc_ball p with Some b => insideb b i j | None => false end
  then 200 else draw_level p i j.
Definition draw (p : picture) : frame := map (fun i => map (draw_pixel p i) (seq 0 160)) (seq 0 210).

Lemma draw_dims p : dims (draw p).
Proof.
  split; [unfold draw; rewrite map_length, seq_length; reflexivity|]. apply Forall_forall. intros r Hr. unfold draw in Hr. apply in_map_iff in Hr.
  destruct Hr as (i & <- & _). rewrite map_length, seq_length. reflexivity.
Qed.
Lemma draw_look p i j : i < 210 -> j < 160 -> look (draw p) i j = draw_pixel p i j.
Proof.
  intros Hi Hj. unfold look, draw.
  rewrite (nth_indep _ [] (map (draw_pixel p 0) (seq 0 160))) by (rewrite map_length, seq_length; exact Hi).
  rewrite (map_nth (fun i => map (draw_pixel p i) (seq 0 160))), seq_nth by exact Hi.
  rewrite (nth_indep _ 0 (draw_pixel p (0 + i) 0)) by (rewrite map_length, seq_length; exact Hj).
  rewrite (map_nth (draw_pixel p (0 + i))), seq_nth by exact Hj. reflexivity.
Qed.
Lemma draw_level_at p i j : (exists k b, k < 6 /\ In b (level p k) /\ inside (block_box k b) i j /\ draw_level p i j = level_color k) \/
  ((forall k b, k < 6 -> In b (level p k) -> ~ inside (block_box k b) i j) /\ (draw_level p i j = 142 \/ draw_level p i j = 0)).
Proof.
  unfold draw_level. destruct (find _ _) as [k|] eqn:E.
  - left. apply find_some in E. destruct E as [Hk E]. apply in_seq in Hk. apply existsb_exists in E. destruct E as (b & Hb & E). apply insideb_spec in E.
    exists k, b. split; [lia|]. split; [exact Hb|]. split; [exact E|reflexivity].
  - right. split.
    + intros k b Hk Hb Hin. pose proof (find_none _ _ E k ltac:(apply in_seq; lia)) as F. cbn beta in F.
      assert (existsb (fun b => insideb (block_box k b) i j) (level p k) = true) by (apply existsb_exists; exists b; split; [exact Hb|apply insideb_spec; exact Hin]). congruence.
    + destruct (_ || _ || _); auto.
Qed.

(** whatever the scene, if its ball does not hide a part of a block the drawing shows it *)
Lemma draw_shows p : 
  (forall b k c, pc_ball p = Some b -> 1 <= k < 6 -> In c (level p k) -> disjoint b (block_box k c)) ->
  (forall k c, k < 6 -> In c (level p k) -> fst c < snd c) -> shows (draw p) p.
Proof.
  intros Hd Hne. pose proof (draw_dims p) as D. constructor; [exact (proj1 D)|exact (proj2 D)| | |].
  - intros i j Hi Hj. rewrite pixel_look, draw_look by auto. unfold draw_pixel.
    destruct (insideb (paddle_box p) i j) eqn:E1; cbn [orb]; [apply insideb_spec in E1; tauto|].
    destruct (insideb stopper_box i j) eqn:E2; cbn [orb]; [apply insideb_spec in E2; tauto|].
    destruct (match pc_ball p with Some b => insideb b i j | None => false end) eqn:E3.
    + destruct (pc_ball p) as [b|] eqn:Eb; [|discriminate]. apply insideb_spec in E3. split; [|reflexivity]. intros _. right. right. left. exists b. auto.
    + assert (N3 : ~ exists b, pc_ball p = Some b /\ inside b i j).
      { intros (b & Eb & H). rewrite Eb in E3. apply insideb_spec in H. congruence. }
      assert (N1 : ~ inside (paddle_box p) i j) by (intros H; apply insideb_spec in H; congruence).
      assert (N2 : ~ inside stopper_box i j) by (intros H; apply insideb_spec in H; congruence).
      destruct (draw_level_at p i j) as [(k & b & Hk & Hb & Hin & ->)|[Hno Hc]].
      * split.
        -- intros E. destruct k as [|k]; [right; left; exists b; auto|]. exfalso. apply Ok_inj in E. do 5 (destruct k as [|k]; [discriminate|]). lia.
        -- intros [H|[(c & Hc & H)|[H|H]]]; [contradiction| |contradiction|contradiction]. destruct k as [|k]; [reflexivity|]. exfalso.
           unfold inside, block_box in *; cbn [bx_top bx_left bx_height bx_width] in *. lia.
      * split; [intros E; apply Ok_inj in E; lia|].
        intros [H|[(c & Hc' & H)|[H|H]]]; [contradiction| |contradiction|contradiction]. exfalso. exact (Hno 0 c ltac:(lia) Hc' H).
  - intros k j Hk Hj. rewrite pixel_look, draw_look by (auto; lia). unfold draw_pixel.
    replace (insideb (paddle_box p) (57 + 6 * k) j) with false.
    2: { symmetry. apply not_true_is_false. intros H. apply insideb_spec in H. unfold inside, paddle_box in H; cbn [bx_top bx_left bx_height bx_width] in H. lia. }
    replace (insideb stopper_box (57 + 6 * k) j) with false.
    2: { symmetry. apply not_true_is_false. intros H. apply insideb_spec in H. unfold inside, stopper_box in H; cbn [bx_top bx_left bx_height bx_width] in H. lia. }
    cbn [orb]. destruct (match pc_ball p with Some b => insideb b (57 + 6 * k) j | None => false end) eqn:E3.
    + destruct (pc_ball p) as [b|] eqn:Eb; [|discriminate]. apply insideb_spec in E3. split.
      * intros E. exfalso. apply Ok_inj in E. destruct k as [|k]; [lia|]. do 5 (destruct k as [|k]; [discriminate|]). lia.
      * intros (c & Hc & Hcj). exfalso. apply (Hd b k c eq_refl Hk Hc (57 + 6 * k) j E3).
        unfold inside, block_box; cbn [bx_top bx_left bx_height bx_width]. lia.
    + destruct (draw_level_at p (57 + 6 * k) j) as [(k' & b & Hk' & Hb & Hin & ->)|[Hno Hc]].
      * unfold inside, block_box in Hin; cbn [bx_top bx_left bx_height bx_width] in Hin. assert (k' = k) as -> by lia. split; [|reflexivity]. intros _. exists b. split; [exact Hb|lia].
      * split.
        -- intros E. exfalso. apply Ok_inj in E. rewrite E in Hc. clear E. destruct k as [|k]; [lia|]. do 5 (destruct k as [|k]; [cbn in Hc; lia|]). lia.
        -- intros (c & Hc' & Hcj). exfalso. apply (Hno k c ltac:(lia) Hc'). unfold inside, block_box; cbn [bx_top bx_left bx_height bx_width]. lia.
  - intros j c E. destruct (le_lt_dec 160 j) as [Hj|Hj].
    + unfold pixel in E. rewrite line_look in E by (auto; lia). cbn [bind] in E. rewrite (proj2 (nth_error_None _ j)) in E by (rewrite dims_row by (auto; lia); exact Hj). discriminate.
    + rewrite pixel_look, draw_look in E by (auto; lia). apply Ok_inj in E; subst c. unfold draw_pixel. destruct (_ || _ || _); [lia|].
      destruct (draw_level_at p 189 j) as [(k & b & Hk & Hb & Hin & ->)|[_ [-> | ->]]]; [|lia|lia].
      unfold level_color. do 6 (destruct k as [|k]; [cbn; lia|]). lia.
Qed.

(** ** when the reader returns *)
Lemma argmax_from_bound l i best arg : arg < i -> argmax_from l i best arg < i + length l.
Proof.
  revert i best arg. induction l as [|a l IH]; intros i best arg H; cbn [argmax_from length]; [lia|].
  destruct (best <? a); [pose proof (IH (S i) a i ltac:(lia))|pose proof (IH (S i) best arg ltac:(lia))]; lia.
Qed.
Lemma argmax_ok l : l <> [] -> exists n, argmax l = Ok n /\ n < length l.
Proof. destruct l as [|a l]; [congruence|]. intros _. eexists. split; [reflexivity|]. cbn [length]. pose proof (argmax_from_bound l 1 a 0 ltac:(lia)). lia. Qed.
Lemma first_true_bound l i : first_true l i < i + length l \/ first_true l i = 0.
Proof. revert i. induction l as [|b l IH]; intros i; cbn; [auto|]. destruct b; [left; lia|]. destruct (IH (S i)); [left; lia|auto]. Qed.
Lemma argmax_bool_ok l : l <> [] -> exists n, argmax_bool l = Ok n /\ n < length l.
Proof. destruct l as [|b l]; [congruence|]. intros _. eexists. split; [reflexivity|]. destruct (first_true_bound (b :: l) 0) as [H|H]; [exact H|rewrite H; cbn; lia]. Qed.
Lemma argmin_bool_ok l : l <> [] -> exists n, argmin_bool l = Ok n /\ n < length l.
Proof. intros H. unfold argmin_bool. destruct (argmax_bool_ok (map negb l)) as (n & E & Hn); [destruct l; cbn; congruence|]. rewrite map_length in Hn. eauto. Qed.
Lemma first_true_value l i : first_true l i <> 0 -> nth (first_true l i - i) l false = true.
Proof.
  revert i. induction l as [|b l IH]; intros i; cbn; [congruence|]. destruct b; [rewrite Nat.sub_diag; reflexivity|]. intros H.
  assert (G : S i <= first_true l (S i)).
  { clear -H. revert H. generalize (S i). induction l as [|b l IH]; intros k; cbn; [congruence|]. destruct b; [auto|]. intros H. specialize (IH _ H). lia. }
  replace (first_true l (S i) - i) with (S (first_true l (S i) - S i)) by lia. apply IH, H.
Qed.
Lemma first_true_zero l i : i <> 0 -> first_true l i = 0 -> forall k, k < length l -> nth k l false = false.
Proof.
  revert i. induction l as [|b l IH]; intros i Hi H k Hk; cbn in *; [lia|]. destruct b; [congruence|]. destruct k as [|k]; [reflexivity|].
  exact (IH (S i) ltac:(lia) H k ltac:(lia)).
Qed.

(** number of pixels of colour [c] on a line *)
Definition count (c : nat) (l : list nat) : nat := length (filter (fun c' => c' =? c) l).
Lemma count_less c l l' : length l = length l' -> (forall k, k < length l -> nth k l' 0 = c -> nth k l 0 = c) ->
  (exists k, k < length l /\ nth k l 0 = c /\ nth k l' 0 <> c) -> count c l' < count c l.
Proof.
  unfold count. revert l'. induction l as [|a l IH]; intros [|b l'] HL Hm (k & Hk & H1 & H2); cbn in *; try lia.
  assert (Le : forall m m', length m = length m' -> (forall k, k < length m -> nth k m' 0 = c -> nth k m 0 = c) -> length (filter (fun c' => c' =? c) m') <= length (filter (fun c' => c' =? c) m)).
  { clear. induction m as [|a m IH]; intros [|b m'] HL Hm; cbn in *; try lia. specialize (IH m' ltac:(lia) (fun k Hk => Hm (S k) ltac:(lia))).
    destruct (Nat.eqb_spec b c) as [Eb|Eb]; [rewrite (Hm 0 ltac:(lia) Eb), Nat.eqb_refl; cbn; lia|]. destruct (a =? c); cbn; lia. }
  destruct k as [|k].
  - rewrite H1, Nat.eqb_refl. rewrite (proj2 (Nat.eqb_neq b c) H2). cbn. pose proof (Le l l' ltac:(lia) (fun k Hk => Hm (S k) ltac:(lia))). lia.
  - assert (I : length (filter (fun c' => c' =? c) l') < length (filter (fun c' => c' =? c) l)).
    { apply IH; [lia|exact (fun k Hk => Hm (S k) ltac:(lia))|]. exists k. split; [lia|auto]. }
    destruct (Nat.eqb_spec b c) as [Eb|Eb]; [rewrite (Hm 0 ltac:(lia) Eb), Nat.eqb_refl; cbn; lia|]. destruct (a =? c); cbn; lia.
Qed.

Lemma blocks_return fuel top color : color <> 0 -> top < 210 -> forall g acc, dims g -> look g top 159 <> color -> count color (nth top g []) < fuel ->
  exists g' r, find_blocks fuel g top color acc = Ok (g', r) /\ dims g' /\ forall i j, i < 210 -> j < 160 -> look g' i j = look g i j \/ look g' i j = 0.
Proof.
  intros Hc Ht. induction fuel as [|fuel IH]; intros g acc D Hlast Hf; [lia|]. cbn [find_blocks]. rewrite line_look by auto. cbn [bind].
  set (row := nth top g []) in *. assert (Lr : length row = 160) by (apply dims_row; auto). assert (Lk : forall k, nth k row 0 = look g top k) by reflexivity.
  assert (Nr : map (fun c => c =? color) row <> []) by (intros E; apply (f_equal (@length bool)) in E; rewrite map_length, Lr in E; discriminate).
  destruct (argmax_bool_ok _ Nr) as (l & El & Hl). rewrite El. cbn [bind]. rewrite map_length in Hl. destruct (Nat.eqb_spec l 0) as [->|Nl].
  - exists g, acc. split; [reflexivity|]. split; [exact D|]. auto.
  - assert (Rl : look g top l = color).
    { unfold argmax_bool in El. destruct (map (fun c => c =? color) row) as [|b bl] eqn:Em; [discriminate|]. apply Ok_inj in El.
      pose proof (first_true_value (b :: bl) 0 ltac:(rewrite El; exact Nl)) as V. rewrite El, Nat.sub_0_r, <- Em, eqc_nth in V by lia. apply Nat.eqb_eq, V. }
    assert (Ns : map negb (map (fun c => c =? color) (skipn l row)) <> []) by (intros E; apply (f_equal (@length bool)) in E; rewrite !map_length, skipn_length in E; cbn in E; lia).
    unfold argmin_bool. destruct (argmax_bool_ok _ Ns) as (k & Ek & Hk). rewrite Ek. cbn [bind]. rewrite !map_length, skipn_length in Hk.
    assert (Pk : 0 < k).
    { destruct k; [exfalso|lia]. unfold argmax_bool in Ek. destruct (map negb _) as [|b bl] eqn:Em; [discriminate|]. apply Ok_inj in Ek.
      assert (Hb : b = false). { assert (E0 : nth 0 (map negb (map (fun c => c =? color) (skipn l row))) false = b) by (rewrite Em; reflexivity).
        rewrite eqc_neg_nth in E0 by (rewrite skipn_length; lia). rewrite nth_skipn, Nat.add_0_r, Lk, Rl, Nat.eqb_refl in E0. symmetry. exact E0. }
      subst b. cbn [first_true] in Ek. 
      assert (Hz : forall k, k < length bl -> nth k bl false = false) by (apply (first_true_zero bl 1); [discriminate|exact Ek]).
      assert (Lb : S (length bl) = 160 - l) by (change (S (length bl)) with (length (false :: bl)); rewrite <- Em, !map_length, skipn_length; lia).
      destruct (Nat.eq_dec l 159) as [->|N159]; [contradiction|].
      assert (E1 : nth (159 - l) (map negb (map (fun c => c =? color) (skipn l row))) false = false).
      { rewrite Em. replace (159 - l) with (S (158 - l)) by lia. cbn [nth]. apply Hz. lia. }
      rewrite eqc_neg_nth in E1 by (rewrite skipn_length; lia). rewrite nth_skipn, Lk in E1. replace (l + (159 - l)) with 159 in E1 by lia.
      apply negb_false_iff, Nat.eqb_eq in E1. contradiction. }
    cbn [fst]. set (g1 := remove_rect g (top, l) (top + BLOCK_HEIGHT - 1, k + l - 1)). assert (D1 : dims g1) by (apply remove_dims, D).
    assert (L1 : forall i j, i < 210 -> j < 160 -> look g1 i j = look g i j \/ look g1 i j = 0).
    { intros i j Hi Hj. unfold g1. rewrite remove_look by auto. destruct (boxed _ _ _ _); auto. }
    assert (C1 : count color (nth top g1 []) < fuel).
    { enough (count color (nth top g1 []) < count color row) by lia. apply count_less.
      - rewrite Lr, dims_row by auto. reflexivity.
      - rewrite Lr. intros j Hj. change (look g1 top j = color -> look g top j = color). destruct (L1 top j Ht Hj) as [E|E]; rewrite E; [auto|congruence].
      - exists l. rewrite Lr. split; [lia|]. split; [exact Rl|]. change (look g1 top l <> color). unfold g1. rewrite remove_look by (auto; lia).
        replace (boxed (top, l) (top + BLOCK_HEIGHT - 1, k + l - 1) top l) with true; [congruence|]. symmetry. apply boxed_out. cbn [fst snd]. unfold BLOCK_HEIGHT. lia. }
    destruct (IH g1 (acc ++ [(top, l, (top + BLOCK_HEIGHT, k + l))]) D1) as (g' & r & E & D' & L').
    + destruct (L1 top 159 Ht ltac:(lia)) as [E|E]; rewrite E; congruence.
    + exact C1.
    + exists g', r. split; [exact E|]. split; [exact D'|]. intros i j Hi Hj. destruct (L' i j Hi Hj) as [E'|E']; rewrite E'; [|auto]. apply L1; auto.
Qed.
Lemma levels_return fuel : 160 < fuel -> forall colors i g acc, dims g -> 57 + 6 * (i + length colors) <= 210 -> Forall (fun c => c <> 0) colors ->
  (forall k, k < length colors -> look g (57 + 6 * (i + k)) 159 <> nth k colors 0) ->
  exists g' r, find_levels fuel g i colors acc = Ok (g', r) /\ dims g'.
Proof.
  intros Hf. induction colors as [|c colors IH]; intros i g acc D Hr Hc Hl; [exists g, acc; split; [reflexivity|exact D]|].
  inversion_clear Hc as [|? ? Hc0 Hcs]. cbn [length] in Hr. cbn [find_levels]. unfold BLOCKS_TOP, BLOCK_HEIGHT at 1. replace (57 + i * 6) with (57 + 6 * i) by lia.
  destruct (blocks_return fuel (57 + 6 * i) c Hc0 ltac:(lia) g acc D) as (g1 & r1 & E1 & D1 & L1).
  - pose proof (Hl 0 ltac:(cbn; lia)) as H. rewrite Nat.add_0_r in H. exact H.
  - unfold count. pose proof (dims_row g (57 + 6 * i) D ltac:(lia)) as Lr.
    assert (F : forall l : list nat, length (filter (fun c' => c' =? c) l) <= length l) by (induction l as [|a l IHl]; cbn; [lia|destruct (a =? c); cbn; lia]).
    specialize (F (nth (57 + 6 * i) g [])). lia.
  - rewrite E1. cbn [bind fst snd]. destruct (IH (S i) g1 r1 D1 ltac:(lia) Hcs) as (g' & r & E & D').
    + intros k Hk. pose proof (Hl (S k) ltac:(cbn; lia)) as H. cbn [nth] in H. replace (S i + k) with (i + S k) by lia.
      destruct (L1 (57 + 6 * (i + S k)) 159 ltac:(lia) ltac:(lia)) as [E|E]; rewrite E; [exact H|]. rewrite Forall_forall in Hcs. 
      pose proof (Hcs (nth k colors 0) ltac:(apply nth_In; lia)). congruence.
    + exists g', r. split; [exact E|exact D'].
Qed.
Lemma ball_returns h cells : dims h -> (forall i j, In (i, j) cells -> i < 210 /\ j < 160) -> exists b, find_ball h cells = Ok b.
Proof.
  intros D. induction cells as [|(i, j) cells IH]; intros H; [exists None; reflexivity|]. cbn [find_ball].
  destruct (H i j ltac:(cbn; auto)) as [Hi Hj]. rewrite pixel_look by auto. cbn [bind]. destruct (_ =? _); [|apply IH; intros i' j' Hin; apply H; cbn; auto].
  rewrite line_look by auto. cbn [bind]. pose proof (dims_row h i D Hi) as Lr.
  destruct (argmin_bool_ok (map (fun c => c =? BALL_COLOR) (skipn j (nth i h [])))) as (k & E & _).
  { intros E. apply (f_equal (@length bool)) in E. rewrite map_length, skipn_length in E. cbn in E. lia. }
  rewrite E. cbn [bind]. destruct (column_look h i j D ltac:(lia) Hj) as (col & Ec & Lc & _). rewrite Ec. cbn [bind].
  destruct (argmin_bool_ok (map (fun c => c =? BALL_COLOR) col)) as (l & El & _).
  { intros E'. apply (f_equal (@length bool)) in E'. rewrite map_length in E'. cbn in E'. lia. }
  rewrite El. cbn [bind]. eauto.
Qed.

Lemma screen_returns {T} {N : Num T} f fuel : dims f -> 160 < fuel -> 
  (forall k, k < 6 -> look f (57 + 6 * k) 159 <> level_color k) ->
  (exists j, j < 157 /\ forall k, k < 160 -> look f 189 k <= look f 189 j) ->
  exists r, extract_params fuel f = Ok r.
Proof.
  intros D Hf Hl (j & Hj & Hmax). unfold extract_params, find_paddle, PADDLE_TOP_LINE. rewrite line_look by (auto; lia). cbn [bind].
  set (row := nth 189 f []). assert (Lr : length row = 160) by (apply dims_row; auto; lia).
  assert (A : exists x, argmax row = Ok x /\ x < 157).
  { assert (First : exists n, n <= j /\ look f 189 n = look f 189 j /\ forall k, k < n -> look f 189 k <> look f 189 j).
    { assert (G : forall m, (forall k, k < m -> look f 189 k <> look f 189 j) \/ exists n, n < m /\ look f 189 n = look f 189 j /\ forall k, k < n -> look f 189 k <> look f 189 j).
      { induction m as [|m [IH|(n & Hn & IH)]]; [left; intros; lia| |right; exists n; split; [lia|exact IH]].
        destruct (Nat.eq_dec (look f 189 m) (look f 189 j)) as [E|E]; [right; exists m; split; [lia|auto]|left]. intros k Hk. destruct (Nat.eq_dec k m) as [->|]; [exact E|apply IH; lia]. }
      destruct (G (S j)) as [H|(n & Hn & H)]; [exfalso; exact (H j ltac:(lia) eq_refl)|]. exists n. split; [lia|exact H]. }
    destruct First as (n & Hn & En & Hlow). exists n. split; [|lia]. apply argmax_at; [lia| |].
    - rewrite Lr. intros k Hk. change (look f 189 k <= look f 189 n). rewrite En. apply Hmax, Hk.
    - intros k Hk. change (look f 189 k < look f 189 n). rewrite En. pose proof (Hmax k ltac:(lia)). pose proof (Hlow k Hk). lia. }
  destruct A as (x & -> & Hx). cbn [bind]. unfold BALL_WIDTH. rewrite pixel_look by (auto; lia). cbn [bind].
  assert (B : exists x', (if look f 189 (x + 2 + 1) =? PADDLE_COLOR then Ok x else do k <- argmax (skipn (x + 2 + 1) row); Ok (k + x + 2 + 1)) = Ok x' /\ x' < 160).
  { destruct (_ =? _); [exists x; split; [reflexivity|lia]|]. destruct (argmax_ok (skipn (x + 2 + 1) row)) as (k & -> & Hk).
    - intros E. apply (f_equal (@length nat)) in E. rewrite skipn_length in E. cbn in E. lia.
    - rewrite skipn_length in Hk. cbn [bind]. eexists. split; [reflexivity|]. lia. }
  destruct B as (x' & -> & Hx'). cbn [bind].
  destruct (argmin_bool_ok (map (fun c => c =? PADDLE_COLOR) (skipn x' row))) as (k & -> & _).
  { intros E. apply (f_equal (@length bool)) in E. rewrite map_length, skipn_length in E. cbn in E. lia. }
  cbn [bind fst snd]. set (f1 := remove_rect f _ _). assert (D1 : dims f1) by (apply remove_dims, D).
  destruct (levels_return fuel Hf BLOCK_COLORS 0 f1 [] D1) as (g & r & E & Dg).
  - cbn. lia.
  - repeat constructor; discriminate.
  - intros i Hi. cbn [BLOCK_COLORS length] in Hi. change (look f1 (57 + 6 * i) 159 <> level_color i). unfold f1. rewrite remove_look by (auto; lia).
    destruct (boxed _ _ _ _); [|apply Hl, Hi]. clear -Hi. do 6 (destruct i as [|i]; [discriminate|]). lia.
  - rewrite E. cbn [bind fst snd]. match goal with |- context[find_ball ?h _] => destruct (ball_returns h screen_cells) as (b & ->) end.
    + apply remove_dims, Dg.
    + unfold screen_cells, SCREEN_HEIGHT, SCREEN_WIDTH. intros i j' Hin. apply in_prod_iff in Hin. destruct Hin as [H1 H2]. apply in_seq in H1, H2. lia.
    + cbn [bind]. eauto.
Qed.

(** ** a screen on which it never returns *)
Lemma remove_empty g t l b : remove_rect g (t, S l) (b, l) = g.
Proof.
  unfold remove_rect. assert (G : forall (A : Type) (k : nat -> A -> A) (s : nat) (m : list A), (forall i a, k i a = a) -> map2 k (seq s (length m)) m = m).
  { intros A k s m H. revert s. induction m as [|a m IH]; intros s; cbn; [reflexivity|]. rewrite H, IH. reflexivity. }
  apply G. intros i r. destruct (_ && _); [|reflexivity]. apply G. intros j c. cbn [fst snd]. destruct (Nat.leb_spec (S l) j); cbn [andb]; [|reflexivity].
  destruct (Nat.ltb_spec j (l + 1)); [lia|reflexivity].
Qed.
Lemma blocks_stuck g top color row l : line g top = Ok row -> argmax_bool (map (fun c => c =? color) row) = Ok (S l) ->
  argmin_bool (map (fun c => c =? color) (skipn (S l) row)) = Ok 0 -> forall fuel acc, find_blocks fuel g top color acc = Err EFuel.
Proof.
  intros H1 H2 H3. induction fuel as [|fuel IH]; intros acc; [reflexivity|]. cbn [find_blocks]. rewrite H1. cbn [bind]. rewrite H2. cbn [bind Nat.eqb].
  rewrite H3. cbn [bind fst]. replace (0 + S l - 1) with l by lia. rewrite remove_empty. apply IH.
Qed.
