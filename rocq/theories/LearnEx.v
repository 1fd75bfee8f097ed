(** A game for C92: the paddle moves two pixels to the left for action 3, to the right for action 2 *)
From Coq Require Import List Arith ZArith Bool Reals Lra Lia.
From Verif Require Import Num Tensor Bodies Contacts World Breakout Screen Game Learn ScreenSpec GeoSpec GameSpec LearnSpec RBase ScreenFacts ScreenEx LearnFacts LearnProps.
Import ListNotations.
Open Scope R_scope.

Definition balance (sent : list nat) : Z := fold_right (fun a s => (match a with 2%nat => 1 | 3%nat => -1 | _ => 0 end + s)%Z) 0%Z sent.
Definition scene_at (k : Z) : picture := mkPicture (Z.to_nat (64 + 2 * k)) 16 [[]; [(24, 32)]; []; []; []; []]%nat None.
Definition draw_scene (k : Z) : frame := draw (scene_at k).
Definition game_env (sent : list nat) : frame := draw_scene (balance sent).
Definition game_scene (acts : list R) (j : nat) : picture := scene_at (balance (sent (firstn j acts))).

Lemma scene_shown k : shows (draw (scene_at k)) (scene_at k).
Proof.
  apply draw_shows; [intros b i c H; discriminate|]. intros i c Hi Hc. do 6 (destruct i as [|i]; [cbn in Hc; repeat (destruct Hc as [<-|Hc]; [cbn; lia|]); destruct Hc|]). lia.
Qed.
Lemma scene_readable k : (-32 <= k <= 32)%Z -> readable (scene_at k).
Proof.
  intros Hk. constructor; cbn [pc_paddle pc_width pc_blocks pc_ball scene_at]; [lia| |discriminate]. split; [reflexivity|]. repeat constructor; cbn; lia.
Qed.
Lemma scene_paddle k : (-32 <= k)%Z -> paddle_of (scene_at k) = ([72 + 2 * IZR k; 191], [16; 4]).
Proof.
  intros Hk. unfold paddle_of, centre, size, scene_at. cbn [paddle_box bx_left bx_top bx_width bx_height pc_paddle pc_width].
  assert (E : INR (Z.to_nat (64 + 2 * k)) = 64 + 2 * IZR k) by (rewrite INR_IZR_INZ, Z2Nat.id, plus_IZR, mult_IZR by lia; reflexivity). rewrite E. rewrite !INR_IZR_INZ. cbn [Z.of_nat Pos.of_succ_nat Pos.succ]. f_equal. apply f_equal2; [lra|]. apply f_equal2; [lra|reflexivity].
Qed.
Lemma scene_blocks k : blocks_of (scene_at k) = [([28; 66], [8; 6])].
Proof. unfold blocks_of, all_blocks. cbn. unfold centre, size. cbn. repeat (apply f_equal2; try reflexivity; try lra). Qed.

(** controls 1 and -1 *)
Definition unit_controls (acts : list R) : Prop := Forall (fun a => a = 1 \/ a = -1) acts.
Lemma controls_unit draws : (forall j, draws j <> 0) -> unit_controls (controls draws).
Proof.
  intros H. apply Forall_forall. intros a Ha. apply in_map_iff in Ha. destruct Ha as (j & <- & _). unfold direction. specialize (H j). destruct (Rlt_dec 0 (draws j)); [left; lra|]. destruct (Rlt_dec (draws j) 0); [right; lra|]. exfalso. lra.
Qed.
Lemma balance_controls acts : unit_controls acts -> IZR (balance (sent acts)) = - total acts.
Proof.
  induction 1 as [|a l Ha _ IH]; [cbn; lra|]. cbn [total fold_right]. unfold total in IH.
  assert (E : balance (sent (a :: l)) = ((match get_action a (9 / 10)%R with 2%nat => 1 | 3%nat => -1 | _ => 0 end) + balance (sent l))%Z) by reflexivity. rewrite E, plus_IZR, IH.
  unfold get_action. rnum. destruct Ha as [-> | ->].
  - rewrite (proj2 (Rleb_true _ _)) by (rewrite Rabs_pos_eq; lra). rewrite (proj2 (Rltb_true _ _)) by lra. lra.
  - rewrite (proj2 (Rleb_true _ _)) by (rewrite Rabs_left; lra). rewrite (proj2 (Rltb_false _ _)) by lra. lra.
Qed.
Lemma total_bound acts : unit_controls acts -> - INR (length acts) <= total acts <= INR (length acts).
Proof. induction 1 as [|a l Ha _ IH]; [cbn; lra|]. cbn [total fold_right length]. rewrite S_INR. unfold total in IH. destruct Ha as [-> | ->]; lra. Qed.
Lemma firstn_unit acts j : unit_controls acts -> unit_controls (firstn j acts).
Proof. unfold unit_controls. revert acts. induction j as [|j IH]; intros acts H; [constructor|]. destruct H; [constructor|]. cbn. constructor; auto. Qed.
Section Ex.
Variable acts : list R.
Hypothesis HU : unit_controls acts.
Hypothesis HN : length acts = 10%nat.
Lemma so_far_bound j : -10 <= so_far acts j <= 10.
Proof.
  pose proof (total_bound _ (firstn_unit _ j HU)) as Q. unfold so_far. assert (L : INR (length (firstn j acts)) <= 10) by (rewrite firstn_length, HN; apply (Rle_trans _ (INR 10)); [apply le_INR; lia|cbn; lra]). lra.
Qed.
Lemma balance_bound j : (-10 <= balance (sent (firstn j acts)) <= 10)%Z.
Proof. pose proof (balance_controls _ (firstn_unit _ j HU)) as E. pose proof (so_far_bound j) as Q. unfold so_far in Q. split; apply le_IZR; lra. Qed.
Lemma ex_filmed : filmed game_env acts (game_scene acts) 2.
Proof. intros j _. split; [apply scene_shown|]. split; [apply scene_readable; pose proof (balance_bound j); lia|]. cbn. repeat constructor. Qed.
Lemma ex_moves : moves_by (-2) acts (game_scene acts).
Proof.
  intros j _. unfold game_scene. pose proof (balance_bound j). rewrite !scene_paddle by (cbn; lia). rewrite balance_controls by now apply firstn_unit. fold (so_far acts j). unfold shifted. cbn. apply f_equal2; [|reflexivity]. repeat (apply f_equal2; try reflexivity; try ring).
Qed.
Lemma ex_opening : opening (game_scene acts 0).
Proof.
  unfold opening, game_scene. cbn [firstn sent map balance fold_right]. rewrite scene_blocks, scene_paddle by lia. change (ball_shown (scene_at 0)) with (([80; 21000], 1) : ball_params (T := R)). split; [|discriminate].
  assert (P : forall x y w h : R, 0 < w -> 0 < h -> plain ([x; y], [w; h])) by (intros; do 4 eexists; split; [reflexivity|auto]).
  constructor.
  - apply P; lra.
  - repeat constructor. apply P; lra.
  - do 2 eexists. reflexivity.
  - unfold board, box_of, disc_of. cbn. repeat constructor; cbn; lra.
  - repeat constructor; cbn; lra.
  - repeat constructor; cbn; lra.
  - intros j s [[H _]|[_ H]] Hs; [discriminate|]. do 8 (destruct j as [|j]; [try lia; cbn in Hs; injection Hs as <-; cbn; lra|]). destruct j; discriminate.
  - intros j s [[_ H]|[H _]] Hs; [|discriminate]. do 8 (destruct j as [|j]; [try lia; cbn in Hs; injection Hs as <-; cbn; lra|]). destruct j; discriminate.
Qed.
Lemma ex_keeps_away vx vy : -5 <= vx <= 5 -> -1 <= vy <= 1 -> keeps_away (game_scene acts 0) acts vx vy.
Proof.
  intros Hx Hy i _. pose proof (so_far_bound i) as Q. unfold game_scene. cbn [firstn sent map balance fold_right]. rewrite scene_blocks, scene_paddle by lia. change (ball_shown (scene_at 0)) with (([80; 21000], 1) : ball_params (T := R)).
  assert (A : -50 <= vx * so_far acts i <= 50) by nra. assert (B : -10 <= vy * so_far acts i <= 10) by nra. set (a := vx * so_far acts i) in *. set (b := vy * so_far acts i) in *. clearbody a b. split.
  - intros j s [[H _]|[_ H]] Hs; [discriminate|]. do 8 (destruct j as [|j]; [try lia; cbn in Hs; injection Hs as <-; cbn; lra|]). destruct j; discriminate.
  - intros j s [[_ H]|[H _]] Hs; [|discriminate]. do 8 (destruct j as [|j]; [try lia; cbn in Hs; injection Hs as <-; cbn; lra|]). destruct j; discriminate.
Qed.
End Ex.
