From Coq Require Import List Arith ZArith Lia Bool Reals Lra.
From Verif Require Import Num Tensor Utils Bodies Forces Constraints Contacts World Lapack Pdipm Engines Spec GeoSpec ContactSpec OdeSpec ResFacts RBase.
Import ListNotations.
Open Scope R_scope.

Definition disc_of (e tol : R) (b : body R) : Prop :=
  is_circle b = true /\ 0 < b_rad b /\ tol < 2 * b_rad b /\ g_shape (b_geom b) = GSphere (b_rad b + e) /\ g_pos (b_geom b) = b_pos b.
Definition alike (tol : R) (c c' : contact R) : Prop :=
  c_i1 c' = c_i1 c /\ c_i2 c' = c_i2 c /\ c_pen c' = c_pen c /\ (c_pen c <= tol -> c' = c).
Lemma v2norm_dist (a b : pt) : v2norm (v2sub a b) = dist a b.
Proof. unfold v2norm, v2sub, dist, v2dot. rnum. destruct a, b. cbn [fst snd]. f_equal. Qed.
Lemma disc_call gf o e tol clk k bs i1 i2 : ode_spheres o -> Forall (disc_of e tol) bs ->
  agree (fun '(cs, bs1, _) '(cs', bs1', _) => bs1 = bs /\ bs1' = bs /\ Forall2 (alike tol) cs cs')
    (ode_handler o e clk bs i1 i2) (diff_handler gf o (2 * e) k bs i1 i2).
Proof.
  intros Ho Hd. unfold ode_handler, diff_handler, get_body.
  destruct (nth_error bs i1) as [b1|] eqn:N1; cbn [bind]; [|reflexivity].
  destruct (nth_error bs i2) as [b2|] eqn:N2; cbn [bind]; [|reflexivity].
  rewrite Forall_forall in Hd.
  pose proof (Hd b1 (nth_error_In _ _ N1)) as (C1 & R1 & T1 & S1 & P1). pose proof (Hd b2 (nth_error_In _ _ N2)) as (C2 & R2 & T2 & S2 & P2).
  destruct (existsb _ _). { cbn. auto. }
  rewrite C1, C2. cbn [andb].
  specialize (Ho clk _ _ _ _ S1 S2). rewrite P1, P2 in Ho. rewrite P1, P2. set (l := o_narrow o clk (b_geom b1) (b_geom b2)) in *. clearbody l.
  unfold circle_circle. rewrite v2norm_dist. unfold sphere_answer in Ho. cbv zeta in Ho. set (d := dist (b_pos b1) (b_pos b2)) in *. destruct Ho as (A & B & C).
  assert (D0 : 0 <= d) by apply sqrt_pos.
  fold d. rnum. change (IZR 2) with 2 in *. change (IZR (-2)) with (-2).
  destruct (Rlt_dec (b_rad b1 + e + (b_rad b2 + e)) d) as [F|F].
  - rewrite (A F). cbn [fold_left]. rewrite (proj2 (Rltb_true (b_rad b1 + b_rad b2 - d) (- (2 * e)))) by lra. cbn. auto.
  - rewrite (proj2 (Rltb_false (b_rad b1 + b_rad b2 - d) (- (2 * e)))) by lra. destruct (Req_EM_T d 0) as [Z|Z].
    + destruct C as (p & n & ->); [split; [exact Z|lra]|]. cbn [fold_left fst snd].
      rewrite (proj2 (Rltb_false 0 0)) by lra. rewrite (proj2 (Rltb_false _ _)) by lra.
      cbn. split; [reflexivity|]. split; [reflexivity|]. constructor; [|constructor]. unfold alike. cbn.
      split; [reflexivity|]. split; [reflexivity|]. split; [lra|]. intros L. exfalso. lra.
    + rewrite B by (split; [destruct D0 as [D0|D0]; [exact D0|congruence]|lra]). cbn [fold_left fst snd].
      rewrite (proj2 (Rltb_false 0 0)) by lra. rewrite (proj2 (Rltb_false _ _)) by lra.
      cbn [app agree]. split; [reflexivity|]. split; [reflexivity|]. constructor; [|constructor]. unfold alike. cbn [c_i1 c_i2 c_pen c_normal mk_contacts map].
      split; [reflexivity|]. split; [reflexivity|]. split; [lra|]. intros _.
      clearbody d. destruct (b_pos b1) as [x1 y1], (b_pos b2) as [x2 y2].
      unfold midpoint, v2scale, v2sub, v2opp, v2div. rnum. cbn [fst snd]. f_equal; [f_equal; field; lra|f_equal; field; lra|lra].
Qed.

(** the world [w] with other contacts, eps and clock *)
Definition tweak (w : world R) (cs : list (contact R)) (e : R) (k : nat) : world R :=
  {| w_bodies := w_bodies w; w_joints := w_joints w; w_heap := w_heap w; w_t := w_t w; w_dt := w_dt w;
     w_eps := e; w_tol := w_tol w; w_fric_dirs := w_fric_dirs w; w_post_stab := w_post_stab w; w_strict := w_strict w; w_v := w_v w; w_contacts := cs;
     w_static_inverse := w_static_inverse w; w_num_constraints := w_num_constraints w; w_M := w_M w; w_cache := w_cache w; w_clk := k |}.
Definition alikes (w w' : world R) : Prop := exists cs k, w' = tweak w cs (2 * w_eps w) k /\ Forall2 (alike (w_tol w)) (w_contacts w) cs.
Definition equals (w w' : world R) : Prop := exists k, w' = tweak w (w_contacts w) (2 * w_eps w) k.
Definition discs (w : world R) : Prop := Forall (disc_of (w_eps w) (w_tol w)) (w_bodies w).
(** a computation on worlds that keeps eps, tol and the discs, and looks at neither eps, clock nor contacts *)
Definition rmap1 {A B} (f : A -> B) (r : res A) : res B := match r with Ok a => Ok (f a) | Err e => Err e end.

Lemma set_v_tweak w v cs e k : set_v (tweak w cs e k) v = rmap1 (fun w1 => tweak w1 cs e k) (set_v w v).
Proof. unfold set_v. cbn [tweak w_bodies]. destruct (Nat.eqb _ _); reflexivity. Qed.
Lemma move_all_tweak w dt cs e k : move_all (tweak w cs e k) dt = rmap1 (fun w1 => tweak w1 cs e k) (move_all w dt).
Proof. unfold move_all. cbn [tweak w_bodies w_joints]. destruct (mapM _ _); reflexivity. Qed.
Lemma rewind_tweak w p r cs e k : rewind (tweak w cs e k) p r = rmap1 (fun w1 => tweak w1 cs e k) (rewind w p r).
Proof. unfold rewind, world_set_p. cbn [tweak with_bodies with_state w_bodies w_joints]. destruct (mapM _ _); reflexivity. Qed.
Lemma solve_tweak la mi w dt e k : e_solve (pdipm_engine la mi) (tweak w (w_contacts w) e k) dt = e_solve (pdipm_engine la mi) w dt.
Proof. reflexivity. Qed.

Lemma mapi_from_Forall {A} (P : A -> Prop) f l : (forall i a, P a -> P (f i a)) -> Forall P l -> forall i, Forall P (mapi_from i f l).
Proof. intros Hf H. induction H; intros i; cbn; constructor; auto. Qed.
Lemma disc_set_p e tol b p : disc_of e tol b -> disc_of e tol (set_p b p).
Proof. unfold disc_of, is_circle, b_rad, set_p. intros (C & H). destruct (b_kind b) eqn:K; [|discriminate|discriminate]. cbn. rewrite K. tauto. Qed.
Lemma discs_set_v w v w1 : discs w -> set_v w v = Ok w1 -> discs w1 /\ w_eps w1 = w_eps w /\ w_tol w1 = w_tol w /\ w_contacts w1 = w_contacts w /\ w_strict w1 = w_strict w /\ w_post_stab w1 = w_post_stab w.
Proof.
  unfold set_v. destruct (Nat.eqb _ _); [|discriminate]. intros H [= <-]. split; [|repeat split]. unfold discs. cbn. apply mapi_from_Forall; [|exact H].
  intros i b (C & Hb). unfold disc_of, is_circle, b_rad in *. cbn. tauto.
Qed.
Lemma discs_move w dt w1 : discs w -> move_all w dt = Ok w1 -> discs w1 /\ w_eps w1 = w_eps w /\ w_tol w1 = w_tol w /\ w_contacts w1 = w_contacts w /\ w_strict w1 = w_strict w /\ w_post_stab w1 = w_post_stab w.
Proof.
  unfold move_all. intros H E. destruct (mapM _ _); [|discriminate]. injection E as <-. split; [|repeat split]. unfold discs. cbn.
  unfold discs in H. rewrite Forall_map. eapply Forall_impl; [|exact H]. intros b. apply disc_set_p.
Qed.
Lemma discs_rewind w p r w1 : discs w -> rewind w p r = Ok w1 -> discs w1 /\ w_eps w1 = w_eps w /\ w_tol w1 = w_tol w /\ w_contacts w1 = w_contacts w /\ w_strict w1 = w_strict w /\ w_post_stab w1 = w_post_stab w.
Proof.
  unfold rewind. intros H E. destruct (mapM _ _); [|discriminate]. injection E as <-. split; [|repeat split]. unfold discs. cbn.
  apply mapi_from_Forall; [|exact H]. intros i b. apply disc_set_p.
Qed.

Lemma find_agree gf o w cs0 k : ode_spheres o -> memoryless o -> discs w ->
  agree (fun w1 w1' => alikes w1 w1' /\ discs w1 /\ w_eps w1 = w_eps w /\ w_tol w1 = w_tol w /\ w_strict w1 = w_strict w /\ w_post_stab w1 = w_post_stab w)
    (find_contacts o (ode_handler o) w) (find_contacts o (diff_handler gf o) (tweak w cs0 (2 * w_eps w) k)).
Proof.
  intros Ho Hm Hd. unfold find_contacts. cbn [tweak w_clk w_bodies w_eps]. rewrite (Hm k (w_clk w)).
  set (pairs := o_collide o _ _). clearbody pairs.
  set (f := fun acc '(i1, i2) => _). set (g := fun acc '(i1, i2) => _) at 1.
  assert (G : forall l acc acc',
     agree (fun '(cs, bs, _) '(cs', bs', _) => bs = w_bodies w /\ bs' = w_bodies w /\ Forall2 (alike (w_tol w)) cs cs') acc acc' ->
     agree (fun '(cs, bs, _) '(cs', bs', _) => bs = w_bodies w /\ bs' = w_bodies w /\ Forall2 (alike (w_tol w)) cs cs') (fold_left f l acc) (fold_left g l acc')).
  { induction l as [|[i1 i2] l IH]; intros acc acc' A; [exact A|]. cbn [fold_left]. apply IH. unfold f, g.
    destruct acc as [[[cs bs] c]|], acc' as [[[cs' bs'] c']|]; cbn [agree] in A; try contradiction; [|exact A]. destruct A as (-> & -> & A). cbn [bind].
    pose proof (disc_call gf o (w_eps w) (w_tol w) c c' (w_bodies w) i1 i2 Ho Hd) as D.
    destruct (ode_handler o _ c _ i1 i2) as [[[n1 b1] k1]|], (diff_handler gf o _ c' _ i1 i2) as [[[n2 b2] k2]|]; cbn [agree] in D; try contradiction; [|exact D].
    destruct D as (-> & -> & D). cbn. split; [reflexivity|]. split; [reflexivity|]. apply Forall2_app; assumption. }
  specialize (G pairs (Ok ([], w_bodies w, S (w_clk w))) (Ok ([], w_bodies w, S k)) ltac:(cbn; auto)).
  destruct (fold_left f _ _) as [[[cs bs] c]|], (fold_left g _ _) as [[[cs' bs'] c']|]; cbn [agree] in G; try contradiction; [|exact G].
  destruct G as (-> & -> & G). cbn [bind agree]. split; [exists cs', c'; split; [reflexivity|exact G]|]. repeat split; try reflexivity. exact Hd.
Qed.
Lemma alike_nopen tol cs cs' : Forall2 (alike tol) cs cs' -> forallb (fun c => nleb (c_pen c) tol) cs' = forallb (fun c => nleb (c_pen c) tol) cs.
Proof. induction 1 as [|c c' cs cs' (_ & _ & E & _)]; [reflexivity|]. cbn [forallb]. now rewrite E, IHForall2. Qed.
Lemma alike_eq tol cs cs' : Forall2 (alike tol) cs cs' -> forallb (fun c => nleb (c_pen c) tol) cs = true -> cs' = cs.
Proof.
  induction 1 as [|c c' cs cs' (_ & _ & _ & E)]; [reflexivity|]. cbn [forallb]. intros H1. apply andb_true_iff in H1. destruct H1 as [H1 H2].
  rewrite E, IHForall2; [reflexivity|exact H2|]. now apply Rleb_true in H1.
Qed.
Lemma nopen_tweak w cs e k : no_penetration (tweak w cs e k) = forallb (fun c => nleb (c_pen c) (w_tol w)) cs.
Proof. reflexivity. Qed.
Definition kept (w w1 : world R) : Prop := discs w1 /\ w_eps w1 = w_eps w /\ w_tol w1 = w_tol w /\ w_strict w1 = w_strict w /\ w_post_stab w1 = w_post_stab w.
Lemma loop_agree gf o p r : ode_spheres o -> memoryless o -> forall fuel w dt cs0 k, discs w -> w_strict w = true ->
  agree (fun '(w1, dt1) '(w1', dt1') => dt1' = dt1 /\ equals w1 w1' /\ kept w w1)
    (step_loop fuel o (ode_handler o) w p r dt) (step_loop fuel o (diff_handler gf o) (tweak w cs0 (2 * w_eps w) k) p r dt).
Proof.
  intros Ho Hm. induction fuel as [|fuel IH]; intros w dt cs0 k Hd Hs; [reflexivity|]. cbn [step_loop]. rewrite move_all_tweak.
  destruct (move_all w dt) as [w1|] eqn:M; cbn [rmap1 bind]; [|reflexivity]. destruct (discs_move _ _ _ Hd M) as (D1 & E1 & T1 & _ & S1 & Q1).
  rewrite <- E1. pose proof (find_agree gf o w1 cs0 k Ho Hm D1) as F.
  destruct (find_contacts o (ode_handler o) w1) as [w2|], (find_contacts o (diff_handler gf o) _) as [w2'|]; cbn [agree] in F; try contradiction; [|exact F].
  destruct F as ((cs & k2 & -> & A) & D2 & E2 & T2 & S2 & Q2). cbn [bind]. rewrite nopen_tweak, (alike_nopen _ _ _ A).
  change (forallb _ (w_contacts w2)) with (no_penetration w2). destruct (no_penetration w2) eqn:NP.
  - cbn. split; [reflexivity|]. split; [exists k2; now rewrite (alike_eq _ _ _ A NP)|]. unfold kept. repeat split; congruence || assumption.
  - cbn [tweak w_strict]. rewrite S2, S1, Hs. cbn [negb andb]. rewrite rewind_tweak. destruct (rewind w2 p r) as [w3|] eqn:RW; cbn [rmap1 bind]; [|reflexivity].
    destruct (discs_rewind _ _ _ _ D2 RW) as (D3 & E3 & T3 & _ & S3 & Q3). rewrite <- E3.
    specialize (IH w3 (dt / nofZ 2)%num cs k2 D3 ltac:(congruence)).
    destruct (step_loop fuel o (ode_handler o) _ _ _ _) as [[w4 d4]|], (step_loop fuel o (diff_handler gf o) _ _ _ _) as [[w4' d4']|]; cbn [agree] in IH |- *; try contradiction; [|exact IH].
    destruct IH as (-> & Eq & D4 & E4 & T4 & S4 & Q4). split; [reflexivity|]. split; [exact Eq|]. unfold kept. repeat split; congruence || assumption.
Qed.
Definition good (w : world R) : Prop := discs w /\ w_strict w = true /\ w_post_stab w = false.
Lemma step_dt_agree gf o la mi fuel w dt k : ode_spheres o -> memoryless o -> good w ->
  agree (fun w1 w1' => equals w1 w1' /\ good w1 /\ w_eps w1 = w_eps w)
    (step_dt fuel o (ode_handler o) (pdipm_engine la mi) w dt) (step_dt fuel o (diff_handler gf o) (pdipm_engine la mi) (tweak w (w_contacts w) (2 * w_eps w) k) dt).
Proof.
  intros Ho Hm (Hd & Hs & Hp). unfold step_dt. rewrite solve_tweak. destruct (e_solve _ w dt) as [[v c]|]; cbn [bind]; [|reflexivity].
  change (with_cache (tweak w (w_contacts w) (2 * w_eps w) k) c) with (tweak (with_cache w c) (w_contacts w) (2 * w_eps w) k). rewrite set_v_tweak.
  destruct (set_v (with_cache w c) v) as [w1|] eqn:V; cbn [rmap1 bind]; [|reflexivity].
  destruct (discs_set_v _ _ _ (Hd : discs (with_cache w c)) V) as (D1 & E1 & T1 & _ & S1 & Q1). cbn [with_cache with_state w_eps w_tol w_strict w_post_stab] in *.
  rewrite <- E1. change (w_bodies (tweak w (w_contacts w) (2 * w_eps w1) k)) with (w_bodies w). change (w_joints (tweak w (w_contacts w) (2 * w_eps w1) k)) with (w_joints w).
  pose proof (loop_agree gf o (cat3 (map b_p (w_bodies w))) (map (fun '(j, _, _) => (j_rot1 j, j_rot2 j)) (w_joints w)) Ho Hm fuel w1 dt (w_contacts w) k D1 ltac:(congruence)) as L.
  destruct (step_loop fuel o (ode_handler o) _ _ _ _) as [[w2 d2]|], (step_loop fuel o (diff_handler gf o) _ _ _ _) as [[w2' d2']|]; cbn [agree] in L; try contradiction; [|exact L].
  destruct L as (-> & (k2 & ->) & D2 & E2 & T2 & S2 & Q2). cbn [bind tweak w_post_stab]. rewrite Q2, Q1, Hp. cbn [bind agree].
  split; [exists k2; reflexivity|]. split; [|cbn; congruence]. unfold good. cbn. split; [exact D2|]. split; congruence.
Qed.
Lemma fixed_agree gf o la mi lfuel end_t : ode_spheres o -> memoryless o -> forall fuel w k, good w ->
  agree (fun w1 w1' => equals w1 w1' /\ good w1 /\ w_eps w1 = w_eps w)
    (fixed_loop fuel lfuel o (ode_handler o) (pdipm_engine la mi) end_t w) (fixed_loop fuel lfuel o (diff_handler gf o) (pdipm_engine la mi) end_t (tweak w (w_contacts w) (2 * w_eps w) k)).
Proof.
  intros Ho Hm. induction fuel as [|fuel IH]; intros w k Hg; [reflexivity|]. cbn [fixed_loop]. cbn [tweak w_t].
  destruct (nltb _ _); [|cbn; split; [exists k; reflexivity|auto]].
  pose proof (step_dt_agree gf o la mi lfuel w (end_t - w_t w)%num k Ho Hm Hg) as L.
  destruct (step_dt lfuel o (ode_handler o) _ _ _) as [w1|], (step_dt lfuel o (diff_handler gf o) _ _ _) as [w1'|]; cbn [agree] in L; try contradiction; [|exact L].
  destruct L as ((k1 & ->) & G1 & E1). cbn [bind]. specialize (IH w1 k1 G1).
  destruct (fixed_loop fuel lfuel o (ode_handler o) _ _ _) as [w2|], (fixed_loop fuel lfuel o (diff_handler gf o) _ _ _) as [w2'|]; cbn [agree] in IH |- *; try contradiction; [|exact IH].
  destruct IH as (A & B & C). rewrite C. auto.
Qed.
Lemma exec_agree gf o la mi fuel : ode_spheres o -> memoryless o -> forall ops w k, good w ->
  agree (fun w1 w1' => equals w1 w1' /\ good w1)
    (exec fuel o (ode_handler o) (pdipm_engine la mi) ops w) (exec fuel o (diff_handler gf o) (pdipm_engine la mi) ops (tweak w (w_contacts w) (2 * w_eps w) k)).
Proof.
  intros Ho Hm. induction ops as [|[fx|dt|v] ops IH]; intros w k Hg; cbn [exec].
  - cbn. split; [exists k; reflexivity|exact Hg].
  - unfold step. assert (L : agree (fun w1 w1' => equals w1 w1' /\ good w1 /\ w_eps w1 = w_eps w)
      (if fx then fixed_loop fuel fuel o (ode_handler o) (pdipm_engine la mi) (w_t w + w_dt w)%num w else step_dt fuel o (ode_handler o) (pdipm_engine la mi) w (w_dt w))
      (if fx then fixed_loop fuel fuel o (diff_handler gf o) (pdipm_engine la mi) (w_t w + w_dt w)%num (tweak w (w_contacts w) (2 * w_eps w) k)
       else step_dt fuel o (diff_handler gf o) (pdipm_engine la mi) (tweak w (w_contacts w) (2 * w_eps w) k) (w_dt w))).
    { destruct fx; [apply fixed_agree|apply step_dt_agree]; assumption. }
    change (w_t (tweak w (w_contacts w) (2 * w_eps w) k)) with (w_t w). change (w_dt (tweak w (w_contacts w) (2 * w_eps w) k)) with (w_dt w).
    destruct (if fx then fixed_loop fuel fuel o (ode_handler o) _ _ _ else _) as [w1|], (if fx then fixed_loop fuel fuel o (diff_handler gf o) _ _ _ else _) as [w1'|]; cbn [agree] in L; try contradiction; [|exact L].
    destruct L as ((k1 & ->) & G1 & E1). cbn [bind]. apply IH. exact G1.
  - pose proof (step_dt_agree gf o la mi fuel w dt k Ho Hm Hg) as L.
    destruct (step_dt fuel o (ode_handler o) _ _ _) as [w1|], (step_dt fuel o (diff_handler gf o) _ _ _) as [w1'|]; cbn [agree] in L; try contradiction; [|exact L].
    destruct L as ((k1 & ->) & G1 & E1). cbn [bind]. apply IH. exact G1.
  - rewrite set_v_tweak. destruct (set_v w v) as [w1|] eqn:V; cbn [rmap1 bind]; [|reflexivity]. destruct Hg as (Hd & Hs & Hp).
    destruct (discs_set_v _ _ _ Hd V) as (D1 & E1 & T1 & C1 & S1 & Q1). rewrite <- C1, <- E1. apply IH. split; [exact D1|]. split; congruence.
Qed.
Lemma equals_same w w' : equals w w' -> same_but_eps w w'.
Proof. intros [k ->]. constructor; reflexivity. Qed.
Lemma init_agree gf o heap bs js dt e tol fd : ode_spheres o -> memoryless o -> Forall (disc_of e tol) bs ->
  agree (fun w w' => equals w w' /\ good w) (world_init o (ode_handler o) heap bs js dt e tol fd false true) (world_init o (diff_handler gf o) heap bs js dt (2 * e) tol fd false true).
Proof.
  intros Ho Hm Hb. unfold world_init. destruct bs as [|b bs]; [reflexivity|]. set (bs' := b :: bs) in *. clearbody bs'. destruct (mapM _ js) as [js'|]; cbn [bind]; [|reflexivity].
  set (w0 := {| w_bodies := bs'; w_eps := e |}).
  match goal with |- context [set_v ?x _] => match x with context [2 * e] => change x with (tweak w0 [] (2 * w_eps w0) 0) end end.
  rewrite set_v_tweak. destruct (set_v w0 _) as [w1|] eqn:V; cbn [rmap1 bind]; [|reflexivity].
  destruct (discs_set_v _ _ _ (Hb : discs w0) V) as (D1 & E1 & T1 & C1 & S1 & Q1). rewrite <- E1.
  pose proof (find_agree gf o w1 [] 0 Ho Hm D1) as F.
  destruct (find_contacts o (ode_handler o) w1) as [w2|], (find_contacts o (diff_handler gf o) _) as [w2'|]; cbn [agree] in F; try contradiction; [|exact F].
  destruct F as ((cs & k2 & -> & A) & D2 & E2 & T2 & S2 & Q2). cbn [bind andb]. rewrite nopen_tweak, (alike_nopen _ _ _ A).
  change (forallb _ (w_contacts w2)) with (no_penetration w2). destruct (no_penetration w2) eqn:NP; cbn [negb]; [|reflexivity].
  cbn. split; [exists k2; now rewrite (alike_eq _ _ _ A NP)|]. split; [exact D2|]. split; [rewrite S2, S1; reflexivity|rewrite Q2, Q1; reflexivity].
Qed.
Lemma disc_runs gf o la mi heap bs js dt e tol fd fuel ops : ode_spheres o -> memoryless o -> Forall (disc_of e tol) bs ->
  agree same_but_eps
    (do w <- world_init o (ode_handler o) heap bs js dt e tol fd false true; exec fuel o (ode_handler o) (pdipm_engine la mi) ops w)
    (do w <- world_init o (diff_handler gf o) heap bs js dt (2 * e) tol fd false true; exec fuel o (diff_handler gf o) (pdipm_engine la mi) ops w).
Proof.
  intros Ho Hm Hb. pose proof (init_agree gf o heap bs js dt e tol fd Ho Hm Hb) as I.
  destruct (world_init o (ode_handler o) _ _ _ _ _ _ _ _ _) as [w|], (world_init o (diff_handler gf o) _ _ _ _ _ _ _ _ _) as [w'|]; cbn [agree] in I; try contradiction; [|exact I].
  destruct I as ((k & ->) & G). cbn [bind]. pose proof (exec_agree gf o la mi fuel Ho Hm ops w k G) as L.
  destruct (exec fuel o (ode_handler o) _ _ _) as [w1|], (exec fuel o (diff_handler gf o) _ _ _) as [w1'|]; cbn [agree] in L |- *; try contradiction; [|exact L].
  apply equals_same. tauto.
Qed.
