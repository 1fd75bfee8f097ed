(** C78 in the form the property file uses *)
From Coq Require Import List Arith ZArith Bool Reals Lra Lia.
From Verif Require Import Num Tensor Utils Bodies Contacts World Lapack Engines Breakout Game Plan Spec ScreenSpec GeoSpec GameSpec LapackSpec PlanSpec
     RBase ResFacts LinAlg HandlerFacts GameFacts GameState GameFree PlanFacts.
Import ListNotations.
Open Scope R_scope.

Lemma cost_length (s : vec R) na hz vy lam cen vert : length (cost_matrices s na hz vy lam cen vert) = hz.
Proof. unfold cost_matrices. cbv zeta. destruct (nltb _ _); [now rewrite map_length, seq_length|]. destruct (_ && _)%bool; apply repeat_length. Qed.

Lemma planner_cost paddle blocks ball na hz vy lam cen vert t :
  plain paddle -> Forall plain blocks -> plain_ball ball -> (t < hz)%nat ->
  exists Q, nth_error (cost_matrices (to_vector paddle blocks ball) na hz vy lam cen vert) t = Some Q /\
    forall paddle' blocks' ball' u, plain paddle' -> Forall plain blocks' -> plain_ball ball' -> length (seen blocks') = length (seen blocks) -> length u = na ->
      (follows (ypos paddle) (ypos ball) vy cen t ->
         quad Q (to_vector paddle' blocks' ball' ++ u) = (xpos paddle' - xpos ball') ^ 2 + lam * squares u + (if vert then 10 * ypos ball' ^ 2 else 0)) /\
      (~ follows (ypos paddle) (ypos ball) vy cen t ->
         quad Q (to_vector paddle' blocks' ball' ++ u) = lam * squares u + (if vert then 10 * ypos ball' ^ 2 else 0)).
Proof.
  intros H1 H2 H3 Ht. destruct (state_entries paddle blocks ball H1 H2 H3) as (L & E0 & E1 & E2 & E3). set (s := to_vector paddle blocks ball) in *.
  destruct (cost_nth s na hz vy lam cen vert t Ht) as (b & Hn & Hb). rewrite E1, E3 in Hb. eexists. split; [exact Hn|]. intros paddle' blocks' ball' u P1 P2 P3 Ls Lu.
  destruct (state_entries paddle' blocks' ball' P1 P2 P3) as (L' & E0' & E1' & E2' & E3'). set (s' := to_vector paddle' blocks' ball') in *.
  assert (EL : length s' = length s) by lia. rewrite EL in *. assert (Hns : (3 < length s)%nat) by lia. split; intros F.
  - apply Hb in F. subst b. rewrite follow_quad by auto. now rewrite E0', E2', E3'.
  - destruct b; [exfalso; apply F, Hb; reflexivity|]. rewrite base_quad by auto. now rewrite E3'.
Qed.

(** the frames the paddle follows *)
Lemma follows_above py by_ vy cen t : 0 < vy -> by_ <= py -> (follows py by_ vy cen t <-> by_ + (INR t - 1) * vy <= py).
Proof.
  intros Hv Hb. unfold follows. assert (Q : 0 <= (py - by_) / vy) by (apply Rmult_le_pos; [lra|apply Rlt_le, Rinv_0_lt_compat, Hv]). set (q := (py - by_) / vy) in *.
  assert (Eq : q * vy = py - by_) by (unfold q; field; lra). rewrite INR_IZR_INZ. split.
  - intros [[_ (z & [T1 _] & Hz)]|[H _]]; [|lra]. specialize (T1 Q). apply IZR_le in Hz. rewrite plus_IZR in Hz. nra.
  - intros H. left. split; [exact Hv|]. destruct (truncated_ex q) as (z & T1 & T2). exists z. split; [split; auto|]. specialize (T1 Q).
    assert (K : IZR (Z.of_nat t) - 1 <= q) by (apply (Rmult_le_reg_r vy); lra). assert (Z.of_nat t < z + 2)%Z; [|lia]. apply lt_IZR. rewrite plus_IZR. lra.
Qed.
Lemma follows_below py by_ vy cen t : 0 < vy -> py < by_ -> (follows py by_ vy cen t <-> t = 0%nat /\ by_ < py + 2 * vy \/ t = 1%nat /\ by_ < py + vy).
Proof.
  intros Hv Hb. unfold follows. set (q := (py - by_) / vy) in *. assert (Eq : q * vy = py - by_) by (unfold q; field; lra). assert (Q : q < 0) by nra. split.
  - intros [[_ (z & [_ T2] & Hz)]|[H _]]; [|lra]. specialize (T2 (Rlt_le _ _ Q)). assert (z < 1)%Z by (apply lt_IZR; lra). destruct t as [|[|t]]; [left|right|lia].
    + split; [reflexivity|]. assert (-1 <= IZR z) by (apply IZR_le; lia). nra.
    + split; [reflexivity|]. assert (0 <= IZR z) by (apply IZR_le; lia). nra.
  - intros H. left. split; [exact Hv|]. destruct (truncated_ex q) as (z & T1 & T2). exists z. split; [split; auto|]. specialize (T2 (Rlt_le _ _ Q)). destruct H as [[-> H]|[-> H]].
    + assert (-2 < z)%Z by (apply lt_IZR; nra). lia.
    + assert (-1 < z)%Z by (apply lt_IZR; nra). lia.
Qed.
Lemma follows_else py by_ vy cen t : vy <= 0 -> (follows py by_ vy cen t <-> cen = true /\ 1000 < by_).
Proof. intros Hv. unfold follows. split; [intros [[H _]|[_ H]]; [lra|exact H]|]. intros H. right. split; [exact Hv|exact H]. Qed.

(** the velocity between two states *)
Lemma nth_skip (s : vec R) m k : nth k (skipn m s) 0 = nth (m + k) s 0.
Proof. revert m. induction s as [|a s IH]; intros [|m]; cbn [skipn]; try reflexivity; [destruct k; reflexivity|]. cbn [Nat.add nth]. apply IH. Qed.
Lemma slice_two (s : vec R) x y : vget s (length s - 3) = x -> vget s (length s - 2) = y -> (3 <= length s)%nat -> slice s (length s - 3) (length s - 1) = [x; y].
Proof.
  intros E1 E2 L. unfold slice. replace (length s - 1 - (length s - 3))%nat with 2%nat by lia. unfold vget in *. rnum.
  pose proof (nth_skip s (length s - 3) 0) as A. pose proof (nth_skip s (length s - 3) 1) as B. replace (length s - 3 + 0)%nat with (length s - 3)%nat in A by lia. replace (length s - 3 + 1)%nat with (length s - 2)%nat in B by lia.
  assert (Ls : length (skipn (length s - 3) s) = 3%nat) by (rewrite skipn_length; lia). destruct (skipn (length s - 3) s) as [|a [|b [|c [|]]]]; try discriminate. cbn [firstn]. cbn in A, B. congruence.
Qed.
Lemma velocity_is paddle blocks ball paddle' blocks' ball' : plain paddle -> Forall plain blocks -> plain_ball ball -> plain paddle' -> Forall plain blocks' -> plain_ball ball' ->
  ball_velocity (to_vector paddle blocks ball) (to_vector paddle' blocks' ball') = [xpos ball' - xpos ball; ypos ball' - ypos ball].
Proof.
  intros H1 H2 H3 H1' H2' H3'. destruct (state_entries paddle blocks ball H1 H2 H3) as (L & _ & _ & E2 & E3). destruct (state_entries paddle' blocks' ball' H1' H2' H3') as (L' & _ & _ & E2' & E3').
  unfold ball_velocity. rewrite (slice_two _ _ _ E2 E3), (slice_two _ _ _ E2' E3') by lia. unfold DT. cbn. rnum. apply f_equal2; [field|]. apply f_equal2; [field|reflexivity].
Qed.

(** *** plans in free rounds *)
Definition followb (py by_ vy : R) (cen : bool) (t : nat) : bool :=
  if Rltb 0 vy then int_geb ((py - by_) / vy) (Z.of_nat t - 1) else (cen && Rltb 1000 by_)%bool.
Lemma followb_spec py by_ vy cen t : followb py by_ vy cen t = true <-> follows py by_ vy cen t.
Proof.
  unfold followb, follows. destruct (Rltb_spec 0 vy) as [E|E].
  - rewrite int_spec. split.
    + intros (z & Hz & H). left. split; [exact E|]. exists z. split; [exact Hz|lia].
    + intros [[_ (z & Hz & H)]|[H _]]; [|lra]. exists z. split; [exact Hz|lia].
  - rewrite andb_true_iff, Rltb_true. split; [tauto|]. intros [[H _]|H]; [lra|tauto].
Qed.
Lemma plan_cost_unique fuel o hd e vel vx vy x us Qs c : plan_cost fuel o hd e vel vx vy x us Qs c -> forall c', plan_cost fuel o hd e vel vx vy x us Qs c' -> c' = c.
Proof.
  induction 1 as [x u Q|x u y us Q Qs c Hf H IH]; intros c' H'; inversion H'; subst; try reflexivity.
  - match goal with H : plan_cost _ _ _ _ _ _ _ _ [] _ _ |- _ => inversion H end.
  - inversion H.
  - match goal with H1 : forward _ _ _ _ _ _ _ _ _ = Ok ?z |- _ => rewrite Hf in H1; injection H1 as <- end. f_equal. now apply IH.
Qed.
Section Free.
Variables (la : lapack R) (mi gf : nat) (o : oracle R).
Hypothesis HL : lapack_ok la.
Hypothesis Hmi : (0 < mi)%nat.
Hypothesis Ho : broadphase_sane o.
Hypothesis Hg : (18 <= gf)%nat.
Notation hd := (diff_handler gf o).
Notation eng := (pdipm_engine la mi).
(** the positions at frame [t] *)
Definition paddle_at (vx vy : R) (us : list R) (p : rect_params (T := R)) t := shifted (vx * total (firstn t us)) (vy * total (firstn t us)) p.
Definition ball_at (u : v3 R) (p : ball_params (T := R)) t := shifted (INR t * fst (snd u)) (INR t * snd (snd u)) p.
Lemma shifted_0 {A} (p : list R * A) x y : fst p = [x; y] -> shifted 0 0 p = p.
Proof. intros E. destruct p as [l q]. cbn in E. subst l. unfold shifted. cbn [fst snd nth]. now rewrite !Rplus_0_r. Qed.
Lemma free_costs vel u f vx vy : to_v3 vel = Ok u -> forall us Qs paddle blocks ball, us <> [] -> length Qs = length us -> startable paddle blocks ball -> blocks <> [] -> 0 < snd ball ->
  (forall k, (k < length us)%nat -> uncrowded (paddle_at vx vy us paddle k) blocks (ball_at u ball k)) ->
  plan_cost (S (S f)) o hd eng vel vx vy (to_vector paddle blocks ball) us Qs
    (Rsum (map (fun t => quad (nth t Qs []) (to_vector (paddle_at vx vy us paddle t) blocks (ball_at u ball t) ++ [nth t us 0])) (seq 0 (length us)))).
Proof.
  intros Hv. induction us as [|a us IH]; intros Qs paddle blocks ball Hne HQ ST Hb Hr HU; [congruence|]. destruct Qs as [|Q Qs]; [discriminate|].
  assert (E0 : paddle_at vx vy (a :: us) paddle 0 = paddle /\ ball_at u ball 0 = ball).
  { unfold paddle_at, ball_at. cbn [firstn total fold_right INR]. rewrite !Rmult_0_r, !Rmult_0_l. destruct (st_paddle _ _ _ ST) as (x & y & w & h & -> & _). destruct (st_ball _ _ _ ST) as (bx & by_ & Eb).
    split; [now apply (shifted_0 _ x y)|now apply (shifted_0 _ bx by_)]. }
  destruct E0 as [E0 E0']. cbn [length seq map Rsum fold_right nth]. rewrite E0, E0'. destruct us as [|b us].
  - destruct Qs; [|discriminate]. cbn. rewrite Rplus_0_r. constructor.
  - assert (U0 : uncrowded paddle blocks ball). { specialize (HU 0%nat ltac:(cbn; lia)). now rewrite E0, E0' in HU. }
    assert (U1 : uncrowded (shifted (vx * a) (vy * a) paddle) blocks (shifted (fst (snd u)) (snd (snd u)) ball)).
    { specialize (HU 1%nat ltac:(cbn; lia)). unfold paddle_at, ball_at in HU. cbn [firstn total fold_right INR] in HU. now rewrite !Rplus_0_r, !Rmult_1_l in HU. }
    assert (P : forall k, paddle_at vx vy (a :: b :: us) paddle (S k) = paddle_at vx vy (b :: us) (shifted (vx * a) (vy * a) paddle) k).
    { intros k. unfold paddle_at. cbn [firstn total fold_right]. rewrite shifted_twice. f_equal; unfold total; ring. }
    assert (B : forall k, ball_at u ball (S k) = ball_at u (shifted (fst (snd u)) (snd (snd u)) ball) k).
    { intros k. unfold ball_at. rewrite shifted_twice, S_INR. f_equal; ring. }
    eapply cost_cons; [exact (free_forward la mi gf o HL Hmi Ho Hg _ _ _ _ _ f vx vy a ST Hb Hr Hv U0 U1)|].
    specialize (IH Qs (shifted (vx * a) (vy * a) paddle) blocks (shifted (fst (snd u)) (snd (snd u)) ball)). rewrite <- seq_shift, map_map. unfold Rsum in IH.
    rewrite (map_ext _ (fun t => quad (nth t Qs []) (to_vector (paddle_at vx vy (b :: us) (shifted (vx * a) (vy * a) paddle) t) blocks (ball_at u (shifted (fst (snd u)) (snd (snd u)) ball) t) ++ [nth t (b :: us) 0])))
      by (intros t; rewrite P, B; reflexivity).
    apply IH; [discriminate|cbn in HQ |- *; lia|now apply startable_shifted|exact Hb|exact Hr|]. intros k Hk. rewrite <- P, <- B. apply HU. cbn [length] in *. lia.
Qed.
Lemma free_plan_cost vel u f vx vy us paddle blocks ball lam cen vb : to_v3 vel = Ok u -> us <> [] -> startable paddle blocks ball -> blocks <> [] -> 0 < snd ball ->
  (forall k, (k < length us)%nat -> uncrowded (shifted (vx * total (firstn k us)) (vy * total (firstn k us)) paddle) blocks (shifted (INR k * fst (snd u)) (INR k * snd (snd u)) ball)) ->
  exists gap : nat -> R,
    (forall t, (t < length us)%nat ->
       (follows (ypos paddle) (ypos ball) vb cen t -> gap t = (xpos paddle + vx * total (firstn t us)) - (xpos ball + INR t * fst (snd u))) /\
       (~ follows (ypos paddle) (ypos ball) vb cen t -> gap t = 0)) /\
    forall c, plan_cost (S (S f)) o hd eng vel vx vy (to_vector paddle blocks ball) us (cost_matrices (to_vector paddle blocks ball) 1 (length us) vb lam cen false) c <->
      c = Rsum (map (fun t => gap t ^ 2 + lam * nth t us 0 ^ 2) (seq 0 (length us))).
Proof.
  intros Hv Hne ST Hb Hr HU.
  pose proof (free_costs vel u f vx vy Hv us (cost_matrices (to_vector paddle blocks ball) 1 (length us) vb lam cen false) paddle blocks ball Hne (cost_length _ _ _ _ _ _ _) ST Hb Hr HU) as PC.
  set (Qs := cost_matrices (to_vector paddle blocks ball) 1 (length us) vb lam cen false) in *.
  exists (fun t => if followb (ypos paddle) (ypos ball) vb cen t then (xpos paddle + vx * total (firstn t us)) - (xpos ball + INR t * fst (snd u)) else 0). split.
  { intros t _. split; intros F; [apply followb_spec in F; now rewrite F|]. destruct (followb _ _ _ _ _) eqn:E; [|reflexivity]. apply followb_spec in E. contradiction. }
  match goal with |- forall c, _ <-> c = ?S => assert (E : Rsum (map (fun t => quad (nth t Qs []) (to_vector (paddle_at vx vy us paddle t) blocks (ball_at u ball t) ++ [nth t us 0])) (seq 0 (length us))) = S) end.
  { unfold Rsum. f_equal. apply map_ext_in. intros t Hin. apply in_seq in Hin. assert (Ht : (t < length us)%nat) by lia.
    destruct (planner_cost paddle blocks ball 1 (length us) vb lam cen false t (st_paddle _ _ _ ST) (st_blocks _ _ _ ST) (st_ball _ _ _ ST) Ht) as (Q & HQ & C). fold Qs in HQ. rewrite (nth_error_nth Qs t [] HQ).
    specialize (C (paddle_at vx vy us paddle t) blocks (ball_at u ball t) [nth t us 0] (plain_shifted _ _ _ (st_paddle _ _ _ ST)) (st_blocks _ _ _ ST) ltac:(do 2 eexists; reflexivity) eq_refl eq_refl).
    destruct C as [C1 C2]. assert (Sq : squares [nth t us 0] = nth t us 0 ^ 2) by (unfold squares, Rsum; cbn; ring). rewrite Sq in *. destruct (followb _ _ _ _ _) eqn:D.
    - apply followb_spec in D. rewrite (C1 D). unfold xpos, paddle_at, ball_at, shifted. cbn [fst nth]. ring.
    - rewrite C2; [ring|]. intros F. apply followb_spec in F. congruence. }
  rewrite E in PC. intros c. split; [exact (fun H => plan_cost_unique _ _ _ _ _ _ _ _ _ _ _ PC c H)|]. intros ->. exact PC.
Qed.
End Free.
