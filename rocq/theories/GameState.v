(** The simulated Breakout game: the state vector *)
From Coq Require Import List Arith ZArith Lia Bool Reals Lra.
From Verif Require Import Num Tensor Utils Bodies Forces Constraints Contacts World Lapack Engines Breakout Screen Game
     Spec GeoSpec BodySpec JointSpec FreshSpec ContactSpec LapackSpec EngineSpec ScreenSpec GameSpec ResFacts RBase BodyFacts RigidFacts GeomFacts BodyReach WorldFacts HandlerFacts
     LayoutFacts HistFacts UtilFacts GameFacts GameProps GameStart.
Import ListNotations.
Open Scope R_scope.

(** sizes never change *)
Definition size_of (b : body R) : v2 R * R := (b_dims b, b_rad b).
Lemma kept_steps : body_steps (fun b b' : body R => size_of b' = size_of b).
Proof.
  constructor.
  - intros a b c H1 H2. congruence.
  - intros. reflexivity.
  - intros b p. unfold size_of, b_dims, b_rad, set_p. destruct b as [id k q v ? ? ? ? ? ? ?]. cbn [b_kind b_p]. destruct k as [r|vs l|d vs l]; [reflexivity| |]; destruct (neqb _ _); reflexivity.
  - intros b b' E. assert (K : forall c : body R, size_of (forget c) = size_of c) by (intros [? [] ? ? ? ? ? ? ? ? ?]; reflexivity). rewrite <- (K b), <- (K b'), E. reflexivity.
Qed.

Definition rect_of (b : body R) : rect_params (T := R) := ([fst (b_pos b); snd (b_pos b)], [fst (b_dims b); snd (b_dims b)]).
Definition ball_of (b : body R) : ball_params (T := R) := ([fst (b_pos b); snd (b_pos b)], b_rad b).
Lemma put_rect_back b : put_rect b (rect_of b) = angle_cleared b.
Proof.
  unfold put_rect, angle_cleared, rect_of, b_pos, b_dims. destruct b as [id k [r [x y]] v ? ? ? ? ? ? ?].
  destruct k as [r0|vs l|[d1 d2] vs l]; reflexivity.
Qed.
Lemma put_ball_back b : put_ball b (ball_of b) = angle_cleared b.
Proof.
  unfold put_ball, angle_cleared, ball_of, b_pos, b_rad. destruct b as [id k [r [x y]] v ? ? ? ? ? ? ?]. destruct k as [r0|vs l|[d1 d2] vs l]; reflexivity.
Qed.
Lemma cleared_same b : b_rot b = 0 -> angle_cleared b = b.
Proof. unfold b_rot, angle_cleared, b_pos. destruct b as [id k [r [x y]] v ? ? ? ? ? ? ?]. cbn. intros ->. reflexivity. Qed.
Lemma reset (w : world R) v : game_vector w = Ok v -> exists ball paddle rest, w_bodies w = ball :: paddle :: rest /\ skipn 5 rest <> [] /\
  v = to_vector (rect_of paddle) (map rect_of (skipn 5 rest)) (ball_of ball) /\
  put_all v (w_bodies w) = angle_cleared ball :: angle_cleared paddle :: firstn 5 rest ++ map angle_cleared (skipn 5 rest).
Proof.
  unfold game_vector. destruct (w_bodies w) as [|ball [|paddle rest]] eqn:Eb; try discriminate. intros H. exists ball, paddle, rest. split; [reflexivity|].
  destruct (skipn 5 rest) as [|k ks] eqn:Ek; [discriminate|]. split; [discriminate|]. rewrite <- Ek in *.
  assert (Ev : v = to_vector (rect_of paddle) (map rect_of (skipn 5 rest)) (ball_of ball)).
  { rewrite Ek in H. injection H as <-. unfold to_vector. rewrite Ek. cbn [map rect_of ball_of fst snd app flat_map]. do 4 f_equal. do 4 f_equal. f_equal. clear. induction ks as [|b l IH]; [reflexivity|]. cbn [map flat_map app fst snd rect_of]. now rewrite IH. }
  split; [exact Ev|]. unfold put_all. rewrite Ev, codec_round_trip.
  - rewrite put_ball_back, put_rect_back. do 3 f_equal. clear. induction (skipn 5 rest) as [|b l IH]; [reflexivity|]. cbn [map map2]. unfold map2 in *. cbn. rewrite put_rect_back. f_equal. exact IH.
  - split; reflexivity.
  - apply Forall_forall. intros x Hx. apply in_map_iff in Hx. destruct Hx as (b & <- & _). split; reflexivity.
  - rewrite Ek. discriminate.
  - reflexivity.
Qed.
Lemma skipn_nth {A} (l : list A) n i : nth_error (skipn n l) i = nth_error l (n + i).
Proof. revert l. induction n as [|n IH]; intros [|a l]; try reflexivity; [now destruct i|]. cbn. apply IH. Qed.
Lemma entries_block paddle blocks i x : nth_error (entries paddle blocks) (6 + i) = Some x -> nth_error blocks i = Some (snd (fst x)).
Proof.
  unfold entries. cbn [Nat.add nth_error seq combine furniture map app]. rewrite nth_error_map. generalize 7%nat as n. revert i x. induction blocks as [|b l IH]; intros i x n H; [destruct i; discriminate|].
  destruct i as [|i]; cbn [length seq combine nth_error] in *; [now injection H as <-|]. exact (IH _ _ _ H).
Qed.
Lemma game_parts la mi gf o paddle blocks ball vel w0 b0 rects w st : lapack_ok la -> broadphase_sane o ->
  setup (st := st) o (diff_handler gf o) paddle blocks ball vel w0 b0 rects -> game la mi gf o w0 w ->
  exists b p rest, w_bodies w = b :: p :: rest /\ length rest = (5 + length blocks)%nat /\ b_rad b = snd ball /\ rect_of p = ([fst (b_pos p); snd (b_pos p)], snd paddle) /\
    map rect_of (skipn 5 rest) = blocks /\ Forall (fun k => b_rot k = 0) rest.
Proof.
  intros HL Ho St G. pose proof (game_length _ _ _ _ _ _ _ _ _ _ _ _ St G) as Ln.
  destruct (game_exec _ _ _ _ _ _ G) as (fuel & ops & Hx).
  pose proof (world_steps _ kept_steps _ _ _ _ _ _ _ _ _ _ _ _ _ _ _ _ (diff_handler_frame gf o) (su_init _ _ _ _ _ _ _ _ _ St) Hx) as F.
  destruct (w_bodies w) as [|b [|p rest]] eqn:Eb; cbn [length] in Ln; try lia. exists b, p, rest. split; [reflexivity|]. split; [lia|].
  destruct rects as [|p0 rest0]; [inversion F as [|? ? ? ? ? F1]; inversion F1|].
  assert (Fs : size_of b = size_of b0 /\ size_of p = size_of p0) by (inversion F as [|? ? ? ? Q1 F1]; inversion F1; auto). destruct Fs as [Sb Sp].
  split. { unfold size_of in Sb. injection Sb as _ ->. unfold b_rad. now rewrite (su_ball_kind _ _ _ _ _ _ _ _ _ St). }
  split.
  { pose proof (su_rects _ _ _ _ _ _ _ _ _ St) as R. unfold entries in R. cbn [app] in R. inversion R as [|x y l l' R1 R2]. subst. destruct R1 as (a & c & wd & h & E & _ & _ & K & _). cbn [fst snd] in E.
    unfold rect_of. f_equal. rewrite E. cbn [snd]. unfold size_of in Sp. injection Sp as Sd _. rewrite Sd. unfold b_dims. rewrite K. reflexivity. }
  assert (H : forall i k, nth_error rest i = Some k -> b_rot k = 0 /\ exists x, nth_error (entries paddle blocks) (S i) = Some x /\ rect_of k = snd (fst x)).
  { intros i k Hk. assert (Hk' : nth_error (w_bodies w) (S (S i)) = Some k) by (rewrite Eb; exact Hk).
    destruct (game_held _ _ _ _ _ _ _ _ _ _ _ _ _ _ HL Ho St G (le_n_S _ _ (le_n_S _ _ (Nat.le_0_l i))) Hk') as (x & a & c & wd & h & Ex & Ep & Hw & Hh & Hp & Hv & Hk2).
    split; [unfold b_rot; now rewrite Hp|]. replace (S (S i) - 1)%nat with (S i) in Ex by lia. exists x. split; [exact Ex|].
    destruct (Forall2_nth _ _ _ (S (S i)) k F) as (c0 & Hc0 & Sk); [exact Hk|]. cbn [nth_error] in Hc0.
    destruct (Forall2_nth_l _ _ _ (S i) x (su_rects _ _ _ _ _ _ _ _ _ St) Ex) as (c1 & Hc1 & (a' & c' & wd' & h' & Ep' & _ & _ & K & _)). cbn [nth_error] in Hc1. rewrite Hc0 in Hc1. injection Hc1 as <-.
    rewrite Ep in Ep'. injection Ep' as <- <- <- <-. unfold rect_of, b_pos. rewrite Hp, Ep. cbn [fst snd]. f_equal. injection Sk as Sd _. rewrite Sd. unfold b_dims. rewrite K. reflexivity. }
  split.
  - apply nth_error_ext. intros i. rewrite nth_error_map, skipn_nth.
    destruct (nth_error rest (5 + i)) as [k|] eqn:Ek.
    + destruct (H _ _ Ek) as (_ & x & Ex & Er). cbn [option_map]. rewrite Er. symmetry. exact (entries_block _ _ _ _ Ex).
    + cbn. symmetry. apply nth_error_None. apply nth_error_None in Ek. lia.
  - apply Forall_forall. intros k Hk. apply In_nth_error in Hk. destruct Hk as [i Hk]. now destruct (H _ _ Hk).
Qed.

Lemma game_state la mi gf o paddle blocks ball vel w0 w fuel a vx vy w' : plain paddle -> Forall plain blocks -> plain_ball ball -> lapack_ok la -> broadphase_sane o ->
  make_world o (diff_handler gf o) paddle blocks ball vel = Ok w0 -> game la mi gf o w0 w -> step_breakout fuel o (diff_handler gf o) (pdipm_engine la mi) w 1 a vx vy = Ok w' ->
  exists b p rest, w_bodies w' = b :: p :: rest /\
    simulate_breakout fuel o (diff_handler gf o) (pdipm_engine la mi) a vx vy w =
    match blocks with
    | [] => Err EValue
    | _ => Ok (to_vector ([fst (b_pos p); snd (b_pos p)], snd paddle) blocks ([fst (b_pos b); snd (b_pos b)], snd ball),
               with_bodies w' (angle_cleared b :: angle_cleared p :: rest))
    end.
Proof.
  intros Hp Hb Hball HL Ho H G HX. destruct (make_world_setup _ _ _ _ _ _ _ Hp Hb Hball H) as (b0 & rects & St).
  pose proof (game_action _ _ _ _ _ _ _ _ _ _ _ G HX) as G'. destruct (game_parts _ _ _ _ _ _ _ _ _ _ _ _ _ HL Ho St G') as (b & p & rest & Eb & Ln & Er & Ep & Ek & Hr).
  exists b, p, rest. split; [exact Eb|]. unfold simulate_breakout. rewrite HX. cbn [bind].
  destruct blocks as [|k ks].
  - unfold game_vector. rewrite Eb. apply map_eq_nil in Ek. rewrite Ek. reflexivity.
  - assert (V : exists v, game_vector w' = Ok v). { unfold game_vector. rewrite Eb. destruct (skipn 5 rest); [discriminate|]. eexists. reflexivity. }
    destruct V as [v V]. rewrite V. cbn [bind]. destruct (reset _ _ V) as (b' & p' & rest' & Eb' & _ & Ev & Ea). rewrite Eb in Eb'. injection Eb' as <- <- <-.
    f_equal. f_equal.
    + rewrite Ev, Ek, Ep. unfold ball_of. now rewrite Er.
    + f_equal. rewrite Ea. do 2 f_equal. rewrite <- (firstn_skipn 5 rest) at 3. f_equal. rewrite <- (map_id (skipn 5 rest)) at 2. apply map_ext_in. intros q Hq. apply cleared_same.
      rewrite Forall_forall in Hr. apply Hr. rewrite <- (firstn_skipn 5 rest). apply in_or_app. now right.
Qed.

Lemma plain_ok p : plain p -> rect_ok p.
Proof. intros (x & y & w & h & -> & _). split; reflexivity. Qed.
Lemma seen_plain blocks : Forall plain blocks -> Forall plain (seen blocks).
Proof. destruct blocks; [|auto]. intros _. repeat constructor. do 4 eexists. split; [reflexivity|]. lra. Qed.
Lemma from_seen paddle blocks ball : plain paddle -> Forall plain blocks -> plain_ball ball -> from_vector (to_vector paddle blocks ball) = (paddle, seen blocks, ball).
Proof.
  intros Hp Hb (x & y & Hxy). destruct blocks as [|k ks].
  - cbn [seen]. pose proof (codec_no_blocks paddle ball (plain_ok _ Hp)) as E. rewrite Hxy in E. specialize (E eq_refl). exact E.
  - apply codec_round_trip; [now apply plain_ok| |discriminate|now rewrite Hxy]. eapply Forall_impl; [|exact Hb]. exact plain_ok.
Qed.
Lemma seen_ne blocks : seen blocks <> [].
Proof. destruct blocks; discriminate. Qed.
Lemma forward_is la mi gf o paddle blocks ball vel vx vy u fuel y : plain paddle -> Forall plain blocks -> plain_ball ball -> lapack_ok la -> broadphase_sane o ->
  forward fuel o (diff_handler gf o) (pdipm_engine la mi) vel vx vy (to_vector paddle blocks ball) u = Ok y ->
  exists w w' b p, make_world o (diff_handler gf o) paddle (seen blocks) ball vel = Ok w /\ step_breakout fuel o (diff_handler gf o) (pdipm_engine la mi) w 1 u vx vy = Ok w' /\
    nth_error (w_bodies w') 0 = Some b /\ nth_error (w_bodies w') 1 = Some p /\
    y = to_vector ([fst (b_pos p); snd (b_pos p)], snd paddle) (seen blocks) ([fst (b_pos b); snd (b_pos b)], snd ball).
Proof.
  intros Hp Hb Hball HL Ho. unfold forward. rewrite from_seen by assumption. intros H. bind_inv H as w E1. bind_inv H as r E2. injection H as <-.
  assert (W : exists w', step_breakout fuel o (diff_handler gf o) (pdipm_engine la mi) w 1 u vx vy = Ok w'). { unfold simulate_breakout in E2. bind_inv E2 as w' E3. eauto. }
  destruct W as [w' W]. destruct (game_state la mi gf o paddle (seen blocks) ball vel w w fuel u vx vy w' Hp (seen_plain _ Hb) Hball HL Ho E1 (game_start _ _ _ _ _) W) as (b & p & rest & Eb & Es).
  exists w, w', b, p. split; [exact E1|]. split; [exact W|]. rewrite Eb. split; [reflexivity|]. split; [reflexivity|]. rewrite Es in E2. pose proof (seen_ne blocks). destruct (seen blocks); [congruence|]. now injection E2 as <-.
Qed.
Lemma plan_sizes la mi gf o fuel vel vx vy x us z : lapack_ok la -> broadphase_sane o -> plan fuel o (diff_handler gf o) (pdipm_engine la mi) vel vx vy x us z ->
  forall paddle blocks ball, plain paddle -> Forall plain blocks -> plain_ball ball -> x = to_vector paddle blocks ball ->
  exists q r, plain (q, snd paddle) /\ plain_ball (r, snd ball) /\ z = to_vector (q, snd paddle) (seen blocks) (r, snd ball).
Proof.
  intros HL Ho H. induction H as [x|x a y us z H1 H2 IH]; intros paddle blocks ball Hp Hb Hball E.
  - exists (fst paddle), (fst ball). split; [now destruct paddle|]. split; [now destruct ball|]. rewrite E. destruct paddle, ball. cbn [fst snd]. destruct blocks; reflexivity.
  - subst x. destruct (forward_is _ _ _ _ _ _ _ _ _ _ _ _ _ Hp Hb Hball HL Ho H1) as (w & w' & b & p & _ & _ & _ & _ & Ey).
    assert (P' : plain ([fst (b_pos p); snd (b_pos p)], snd paddle)). { destruct Hp as (x1 & y1 & wd & h & -> & Hw & Hh). do 4 eexists. split; [reflexivity|]. auto. }
    assert (B' : plain_ball ([fst (b_pos b); snd (b_pos b)], snd ball)) by (do 2 eexists; reflexivity).
    destruct (IH _ _ _ P' (seen_plain _ Hb) B' Ey) as (q & r & Q1 & Q2 & Q3). exists q, r. cbn [snd] in *. split; [exact Q1|]. split; [exact Q2|]. rewrite Q3. destruct blocks; reflexivity.
Qed.
Lemma forward_moves la mi gf o paddle blocks ball vel v0 vx vy u fuel y : plain paddle -> Forall plain blocks -> plain_ball ball -> snd ball <> 0 -> lapack_ok la -> broadphase_sane o -> to_v3 vel = Ok v0 ->
  forward fuel o (diff_handler gf o) (pdipm_engine la mi) vel vx vy (to_vector paddle blocks ball) u = Ok y ->
  exists w l w' q r, substeps fuel o (diff_handler gf o) (pdipm_engine la mi) w l w' /\ y = to_vector (q, snd paddle) (seen blocks) (r, snd ball) /\
    ((forall s, In s l -> no_contact_of s 1) -> q = [nth 0 (fst paddle) 0 + vx * u; nth 1 (fst paddle) 0 + vy * u]) /\
    ((forall s, In s l -> no_contact_of s 0) -> r = [nth 0 (fst ball) 0 + fst (snd v0); nth 1 (fst ball) 0 + snd (snd v0)]).
Proof.
  intros Hp Hb Hball Hr HL Ho Hv H. destruct (forward_is _ _ _ _ _ _ _ _ _ _ _ _ _ Hp Hb Hball HL Ho H) as (w & w' & b & p & Hw & Hx & Eb & Ep & Ey).
  destruct (game_moves la mi gf o paddle (seen blocks) ball vel w w fuel u vx vy w' Hp (seen_plain _ Hb) Hball Hr HL Ho Hw (game_start _ _ _ _ _) Hx) as (_ & w1 & l & Hl & _ & _ & HM).
  exists w1, l, w'. do 2 eexists. split; [exact Hl|]. split; [exact Ey|].
  destruct (make_world_setup _ _ _ _ _ _ _ Hp (seen_plain _ Hb) Hball Hw) as (b0 & rects & St).
  assert (L : (2 <= length (w_bodies w))%nat) by (rewrite (game_length la mi _ _ _ _ _ _ _ _ _ _ St (game_start _ _ _ _ _)); lia).
  destruct (nth_error (w_bodies w) 0) as [c0|] eqn:C0; [|apply nth_error_None in C0; lia]. destruct (nth_error (w_bodies w) 1) as [c1|] eqn:C1; [|apply nth_error_None in C1; lia].
  destruct (setup_start _ _ _ _ _ _ _ _ _ _ _ St C0) as (d0 & D0 & F0). destruct (setup_start _ _ _ _ _ _ _ _ _ _ _ St C1) as (d1 & D1 & F1).
  cbn [nth_error] in D0. injection D0 as <-. split; intros HU.
  - destruct (HM 1%nat c1 (le_n 2) C1 HU) as (p' & Ep' & _ & Pp). rewrite Ep in Ep'. injection Ep' as <-. unfold b_pos. rewrite Pp, (forget_eq_p _ _ F1), (forget_eq_v _ _ F1).
    destruct rects as [|d rects]; [discriminate|]. cbn in D1. injection D1 as ->. pose proof (su_rects _ _ _ _ _ _ _ _ _ St) as R. unfold entries in R. inversion R as [|x0 y0 l0 l1 R1 R2]. subst.
    destruct R1 as (a & c & wd & h & E & _ & _ & _ & P & _ & V & _). cbn [fst snd] in E. rewrite E, P, V. reflexivity.
  - destruct (HM 0%nat c0 (le_S _ _ (le_n 1)) C0 HU) as (b' & Eb' & _ & Pb). rewrite Eb in Eb'. injection Eb' as <-. unfold b_pos. rewrite Pb, (forget_eq_p _ _ F0), (forget_eq_v _ _ F0), (su_ball_p _ _ _ _ _ _ _ _ _ St).
    pose proof (su_ball_v _ _ _ _ _ _ _ _ _ St) as V. rewrite Hv in V. injection V as <-. destruct v0 as [? [? ?]]. reflexivity.
Qed.
