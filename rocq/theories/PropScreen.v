(** C74: reading the screen of the breakout game *)
From Coq Require Import List Arith ZArith Lia Bool Floats Reals Lra.
From Verif Require Import Num Tensor Breakout Screen ScreenSpec FloatEx ScreenFacts ScreenEx.
Import ListNotations.
Open Scope nat_scope.

(** every readable scene is read off every frame that shows it: paddle, blocks level by level from
    left to right, ball (its radius is half its smaller side, at most 1) *)
Theorem C74_reads f p fuel :
  shows f p -> readable p -> Forall (fun l => length l < fuel) (pc_blocks p) ->
  extract_params fuel f =
    Ok ((centre (paddle_box p), size (paddle_box p)), map (fun b => (centre b, size b)) (all_blocks p),
        match pc_ball p with
        | Some b => (centre b, Rmin (Rmin (INR (bx_width b)) (INR (bx_height b)) / 2) 1)
        | None => ([80; 21000]%R, 1%R)
        end).
Proof. exact (screen_read f p fuel). Qed.
Print Assumptions C74_reads.

(** every readable scene is shown by some frame: the reader recovers what is drawn *)
Theorem C74_shown p : readable p -> exists f, shows f p.
Proof.
  intros RD. exists (draw p). apply draw_shows.
  - intros b k c Hb Hk Hc. destruct (rd_ball p RD b Hb) as (_ & _ & _ & _ & _ & H & _). apply H; [lia|exact Hc].
  - intros k c Hk Hc. destruct (rd_levels p RD) as [L6 HS]. rewrite Forall_forall in HS.
    assert (Hin : In (level p k) (pc_blocks p)) by (apply nth_In; lia). exact (proj1 (proj2 (spread_lo 0 _ c (HS _ Hin) Hc))).
Qed.
Print Assumptions C74_shown.

(** on a 210 x 160 frame, the reader returns if no level's colour reaches the last column on the
    level's top line and a brightest pixel of the paddle's line is among the first 157 *)
Theorem C74_returns f fuel :
  length f = 210 -> Forall (fun r => length r = 160) f -> 160 < fuel ->
  (forall k, k < 6 -> pixel f (57 + 6 * k) 159 <> Ok (level_color k)) ->
  (exists j c, j < 157 /\ pixel f 189 j = Ok c /\ forall k c', pixel f 189 k = Ok c' -> c' <= c) ->
  exists r, extract_params (T := R) fuel f = Ok r.
Proof.
  intros L F Hf Hl (j & c & Hj & Hc & Hm). assert (D : dims f) by exact (conj L F). rewrite pixel_look in Hc by (auto; lia). injection Hc as <-.
  apply screen_returns; [exact D|exact Hf| |].
  - intros k Hk E. apply (Hl k Hk). rewrite pixel_look by (auto; lia). rewrite E. reflexivity.
  - exists j. split; [exact Hj|]. intros k Hk. apply (Hm k). apply pixel_look; auto; lia.
Qed.
Print Assumptions C74_returns.

(** Finding: a scene in which nothing touches anything, the ball (4 x 2 pixels) on the top line of
    the first level.  The ball is reported as a third block of that level, and the rest of it as a
    ball of radius 1/2. *)
Definition six_levels : list (list (nat * nat)) := [[(8, 40); (60, 96)]; [(8, 152)]; []; []; []; [(24, 32)]].
Definition uncovered (p : picture) : Prop := forall b, pc_ball p = Some b ->
  disjoint b (paddle_box p) /\ disjoint b stopper_box /\ forall k c, k < 6 -> In c (level p k) -> disjoint b (block_box k c).
Definition high_ball : picture := mkPicture 70 16 six_levels (Some (mkBox 56 120 4 2)).
Definition left_ball : picture := mkPicture 70 16 six_levels (Some (mkBox 187 67 4 2)).
Ltac uncovered_tac := intros b E; injection E as <-; unfold disjoint, inside; cbn [bx_top bx_left bx_height bx_width paddle_box stopper_box pc_paddle pc_width high_ball left_ball];
  split; [lia|]; split; [lia|]; intros k c Hk Hc i j;
  do 6 (destruct k as [|k]; [cbn in Hc; repeat (destruct Hc as [<-|Hc]; [cbn [block_box bx_top bx_left bx_height bx_width fst snd]; lia|]); destruct Hc|]); lia.
Theorem C74_high_refuted : exists p, uncovered p /\ shows (draw p) p /\ length (all_blocks p) = 4 /\
  exists paddle blocks ball, extract_params (T := float) 100 (draw p) = Ok (paddle, blocks, ball) /\ length blocks = 5 /\
    nth 2 blocks ([], []) = ([121; 60], [2; 6])%float /\ ball = ([121; 56.5], 0.5)%float.
Proof.
  exists high_ball. assert (A : uncovered high_ball) by uncovered_tac. split; [exact A|]. split.
  - apply draw_shows; [|intros k c Hk Hc; do 6 (destruct k as [|k]; [cbn in Hc; repeat (destruct Hc as [<-|Hc]; [cbn; lia|]); destruct Hc|]); lia].
    intros b k c Hb Hk Hc. destruct (A b Hb) as (_ & _ & H). apply H; [lia|exact Hc].
  - split; [reflexivity|]. do 3 eexists. split; [vm_compute; reflexivity|]. repeat split; reflexivity.
Qed.
Print Assumptions C74_high_refuted.

(** Finding: the ball beside the paddle, one free column between them.  The paddle is reported two
    pixels wide, where the ball is. *)
Theorem C74_left_refuted : exists p, uncovered p /\ shows (draw p) p /\ paddle_box p = mkBox 189 70 4 16 /\
  exists blocks ball, extract_params (T := float) 100 (draw p) = Ok (([68; 191], [2; 4])%float, blocks, ball).
Proof.
  exists left_ball. assert (A : uncovered left_ball) by uncovered_tac. split; [exact A|]. split.
  - apply draw_shows; [|intros k c Hk Hc; do 6 (destruct k as [|k]; [cbn in Hc; repeat (destruct Hc as [<-|Hc]; [cbn; lia|]); destruct Hc|]); lia].
    intros b k c Hb Hk Hc. destruct (A b Hb) as (_ & _ & H). apply H; [lia|exact Hc].
  - split; [reflexivity|]. do 2 eexists. vm_compute. reflexivity.
Qed.
Print Assumptions C74_left_refuted.

(** Finding: a block that reaches the right edge of the frame is found over and over again: the
    reader never returns. *)
Theorem C74_edge_refuted : exists p, shows (draw p) p /\ forall fuel, extract_params (T := R) fuel (draw p) = Err EFuel.
Proof.
  exists (mkPicture 70 16 [[(100, 160)]; []; []; []; []; []] None). split.
  - apply draw_shows; [intros b k c Hb; discriminate|]. intros k c Hk Hc. do 6 (destruct k as [|k]; [cbn in Hc; repeat (destruct Hc as [<-|Hc]; [cbn; lia|]); destruct Hc|]). lia.
  - intros fuel. unfold extract_params. set (f := draw _).
    assert (E : find_paddle f = Ok ((189, 70), (193, 86))) by (vm_compute; reflexivity). rewrite E. cbn [bind fst snd find_levels BLOCK_COLORS].
    set (f1 := remove_rect f (189, 70) (193, 86)).
    assert (E1 : (do row <- line f1 57; do l <- argmax_bool (map (fun c => c =? 200) row); do k <- argmin_bool (map (fun c => c =? 200) (skipn 100 row)); Ok (l, k)) = Ok (100, 0)) by (vm_compute; reflexivity).
    destruct (line f1 57) as [row|e] eqn:El; [|discriminate]. cbn [bind] in E1.
    destruct (argmax_bool (map (fun c => c =? 200) row)) as [l|] eqn:Ea; [|discriminate]. cbn [bind] in E1.
    destruct (argmin_bool (map (fun c => c =? 200) (skipn 100 row))) as [k|] eqn:Ek; [|discriminate]. cbn [bind] in E1. assert (l = 100 /\ k = 0) as [-> ->] by (split; congruence).
    change (BLOCKS_TOP + 0 * BLOCK_HEIGHT) with 57. rewrite (blocks_stuck f1 57 200 row 99 El Ea Ek). reflexivity.
Qed.
Print Assumptions C74_edge_refuted.

(** a case of the theorems: four blocks, the ball on the paddle's line to the left of the paddle *)
Example C74_case : readable (mkPicture 70 16 six_levels (Some (mkBox 187 60 4 2))) /\ Forall (fun l => length l < 3) six_levels.
Proof.
  split; [|repeat constructor]. constructor; cbn [pc_paddle pc_width pc_blocks pc_ball].
  - lia.
  - split; [reflexivity|]. repeat constructor; cbn; lia.
  - intros b E. injection E as <-. unfold disjoint, inside; cbn [bx_top bx_left bx_height bx_width stopper_box]. repeat (split; [lia|]). split.
    + intros k c Hk Hc i j. do 6 (destruct k as [|k]; [cbn in Hc; repeat (destruct Hc as [<-|Hc]; [cbn [block_box bx_top bx_left bx_height bx_width fst snd]; lia|]); destruct Hc|]). lia.
    + repeat split; lia.
Qed.
