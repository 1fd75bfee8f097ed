(** A ball hits another one: the run, step by step (for C86) *)
From Coq Require Import List Arith ZArith Bool Reals Lra Lia Psatz.
From Verif Require Import Num Tensor Utils Bodies Forces Constraints Contacts World Spec GeoSpec BodySpec JointSpec EngineSpec WellSpec SceneSpec BilliardSpec
     RBase ResFacts WorldFacts.
Import ListNotations.
Open Scope R_scope.

Lemma sqrt_line x y : y = 0 -> sqrt (x * x + y * y) = Rabs x.
Proof. intros ->. replace (x * x + 0 * 0) with (Rsqr x) by (unfold Rsqr; ring). apply sqrt_Rsqr_abs. Qed.

(** six balances, restitution and friction at one contact on the line: only velocities along the line change *)
Lemma no_swing ia ib ma mb p q m r r1 r2 r4 tt : 0 < ia -> 0 < ib -> 0 < ma -> 0 < mb ->
  ia * r = tt * p -> ma * r1 = tt -> ib * r2 = - (tt * q) -> mb * r4 = - tt -> Rabs tt <= m ->
  tt * (r1 + r * p - r4 - r2 * q) = - m * Rabs (r1 + r * p - r4 - r2 * q) -> r = 0 /\ r1 = 0 /\ r2 = 0 /\ r4 = 0.
Proof.
  intros Ia Ib Ma Mb B1 B3 B4 B6 K4 K5. set (s := r1 + r * p - r4 - r2 * q) in *.
  assert (M : 0 <= m) by (pose proof (Rabs_pos tt); lra). pose proof (Rabs_pos s) as S1. assert (N : tt * s <= 0) by (rewrite K5; nra).
  assert (E : tt * s = ma * (r1 * r1) + ia * (r * r) + mb * (r4 * r4) + ib * (r2 * r2)).
  { unfold s. replace (tt * (r1 + r * p - r4 - r2 * q)) with (tt * r1 + (tt * p) * r + - tt * r4 + - (tt * q) * r2) by ring.
    rewrite <- B1, <- B4, <- B6, <- B3. ring. }
  assert (Z : forall a x, 0 < a -> a * (x * x) = 0 -> x = 0) by (intros a x Ha Hx; destruct (Rmult_integral _ _ Hx) as [Y|Y]; [lra|destruct (Rmult_integral _ _ Y); auto]).
  pose proof (Rle_0_sqr r) as Q1. pose proof (Rle_0_sqr r1) as Q2. pose proof (Rle_0_sqr r2) as Q3. pose proof (Rle_0_sqr r4) as Q4. unfold Rsqr in *.
  assert (P1 : 0 <= ma * (r1 * r1)) by nra. assert (P2 : 0 <= ia * (r * r)) by nra. assert (P3 : 0 <= mb * (r4 * r4)) by nra. assert (P4 : 0 <= ib * (r2 * r2)) by nra.
  repeat split; [apply (Z ia)|apply (Z ma)|apply (Z ib)|apply (Z mb)]; lra.
Qed.
Lemma along ma mb e va vb l r0 r3 : 0 < ma -> 0 < mb -> 0 <= e -> 0 <= l ->
  ma * r0 = ma * va - l -> mb * r3 = mb * vb + l -> - e * (vb - va) <= r3 - r0 -> (0 < l -> r3 - r0 = - e * (vb - va)) ->
  r0 = (if Rlt_dec vb va then va - (1 + e) * mb / (ma + mb) * (va - vb) else va) /\ r3 = (if Rlt_dec vb va then vb + (1 + e) * ma / (ma + mb) * (va - vb) else vb).
Proof.
  intros Ma Mb He Hl B2 B5 K2 K3. destruct (Rlt_dec vb va) as [Lt|Ge].
  - assert (0 < l).
    { destruct Hl as [Hl|Hl]; [exact Hl|exfalso]. subst l. assert (r0 = va) by nra. assert (r3 = vb) by nra. subst. nra. }
    specialize (K3 H). assert (E : r3 = r0 + e * (va - vb)) by lra. subst r3.
    assert (S0 : (ma + mb) * r0 = ma * va + mb * vb - mb * (e * (va - vb))) by lra.
    assert (R0 : r0 = (ma * va + mb * vb - mb * (e * (va - vb))) / (ma + mb)) by (rewrite <- S0; field; lra).
    rewrite R0. split; field; lra.
  - assert (l = 0).
    { destruct Hl as [Hl|Hl]; [exfalso|auto]. specialize (K3 Hl). assert (0 <= e * (vb - va)) by nra. assert (r3 <= r0) by lra.
      assert (r0 < va) by nra. assert (vb < r3) by nra. lra. }
    subst l. split; nra.
Qed.

Section Duel.
Variables (d : duel) (Hd : sensible d).
Notation ra := (d_ra d). Notation rb := (d_rb d). Notation ma := (d_ma d). Notation mb := (d_mb d). Notation dt := (d_dt d). Notation eps := (d_eps d). Notation tol := (d_tol d).

Definition ball (id : nat) (r m e f x v : R) : body R :=
  mkBody id (KCircle r) (0, (x, 0)) (0, (v, 0)) m (kind_inertia (KCircle r) m) f e eps [] (mkGeom (GSphere (r + eps)) (x, 0) None []).
Definition ball_a x v := ball 0 ra ma (d_ea d) (d_fa d) x v.
Definition ball_b x v := ball 1 rb mb (d_eb d) (d_fb d) x v.
Definition dw (xa va xb vb t : R) (cs : list (contact R)) (cache : option (mat R)) (clk : nat) : world R :=
  mkWorld [ball_a xa va; ball_b xb vb] [] [] t dt eps tol 2 false (d_strict d) [0; va; 0; 0; vb; 0] cs true 0 (world_M [ball_a xa va; ball_b xb vb]) cache clk.

(** a contact on the line between the balls, listed either way round *)
Definition head_on (g : R) (c : contact R) : Prop :=
  c_pen c = - g /\ snd (c_p1 c) = 0 /\ snd (c_p2 c) = 0 /\
  (c_i1 c = 0%nat /\ c_i2 c = 1%nat /\ c_normal c = (-1, 0) \/ c_i1 c = 1%nat /\ c_i2 c = 0%nat /\ c_normal c = (1, 0)).
Definition contacts_of (g : R) (cs : list (contact R)) : Prop :=
  (eps < g -> cs = []) /\ (g <= eps -> exists c, cs = [c] /\ head_on g c).

Lemma ball_move id r m e f x v h : move (ball id r m e f x v) h = ball id r m e f (x + h * v) v.
Proof.
  unfold move, ball, set_p, body_set_p, v3add, v3scale, v2add, v2scale. cbn. rnum. replace (0 + h * 0) with 0 by ring. reflexivity.
Qed.
Lemma line_contacts i j id id' r m e f x v r' m' e' f' x' v' : x <> x' ->
  let g := Rabs (x - x') - (r + r') in
  mk_contacts i j (circle_circle (ball id r m e f x v) (ball id' r' m' e' f' x' v') eps) =
  if Rltb (- g) (- eps) then [] else
    [mkContact ((x - x') / Rabs (x - x'), 0) ((r - - g / 2) * - ((x - x') / Rabs (x - x')), 0) ((r' - - g / 2) * ((x - x') / Rabs (x - x')), 0) (- g) i j].
Proof.
  intros Hx g. unfold circle_circle, v2norm, v2dot, v2sub, b_rad, b_pos. cbn [ball b_kind b_p fst snd]. rnum.
  rewrite sqrt_line by ring. replace (r + r' - Rabs (x - x')) with (- g) by (unfold g; ring).
  assert (A : Rabs (x - x') <> 0) by (apply Rabs_no_R0; lra).
  destruct (Rltb (- g) (- eps)); [reflexivity|]. unfold mk_contacts, v2div, v2scale, v2opp. cbn. rnum.
  replace ((0 - 0) / Rabs (x - x')) with 0 by (field; exact A). rewrite Ropp_0, !Rmult_0_r. reflexivity.
Qed.
Lemma contact_a xa va xb vb g : g = gap d xa xb -> xa < xb -> contacts_of g (mk_contacts 0 1 (circle_circle (ball_a xa va) (ball_b xb vb) eps)).
Proof.
  intros -> H. unfold ball_a, ball_b. rewrite line_contacts by lra. rewrite Rabs_left by lra. replace ((xa - xb) / - (xa - xb)) with (-1) by (field; lra).
  replace (- (xa - xb) - (ra + rb)) with (gap d xa xb) by (unfold gap; ring). split; intros Hg.
  - rewrite (proj2 (Rltb_true _ _)) by lra. reflexivity.
  - rewrite (proj2 (Rltb_false _ _)) by lra. eexists. split; [reflexivity|]. unfold head_on. cbn. auto 7.
Qed.
Lemma contact_b xa va xb vb g : g = gap d xa xb -> xa < xb -> contacts_of g (mk_contacts 1 0 (circle_circle (ball_b xb vb) (ball_a xa va) eps)).
Proof.
  intros -> H. unfold ball_a, ball_b. rewrite line_contacts by lra. rewrite Rabs_right by lra. replace ((xb - xa) / (xb - xa)) with 1 by (field; lra).
  replace (xb - xa - (rb + ra)) with (gap d xa xb) by (unfold gap; ring). split; intros Hg.
  - rewrite (proj2 (Rltb_true _ _)) by lra. reflexivity.
  - rewrite (proj2 (Rltb_false _ _)) by lra. eexists. split; [reflexivity|]. unfold head_on. cbn. auto 7.
Qed.

Variables (o : oracle R) (Ho : broadphase_ok o) (gf : nat).
Notation hd := (diff_handler gf o).

Lemma pairs_two k (gs : list (geom R)) : length gs = 2%nat -> o_collide o k gs = [] \/ o_collide o k gs = [(0, 1)%nat] \/ o_collide o k gs = [(1, 0)%nat].
Proof.
  intros L. destruct Ho as (S1 & _ & O1). specialize (O1 k gs). assert (S2 : forall p, In p (o_collide o k gs) -> p = (0, 1)%nat \/ p = (1, 0)%nat).
  { intros [i j] H. apply S1 in H. rewrite L in H. destruct i as [|[|i]], j as [|[|j]]; try lia; auto. }
  clear S1. destruct (o_collide o k gs) as [|p l]; [auto|]. right.
  assert (l = []) as ->.
  { destruct l as [|q l]; [reflexivity|exfalso]. cbn [map] in O1. inversion O1 as [|? ? N _]; subst. apply N.
    destruct (S2 p ltac:(now left)) as [->|E]; [|subst p]; (destruct (S2 q ltac:(right; now left)) as [->|E']; [|subst q]); left; reflexivity. }
  destruct (S2 p ltac:(now left)) as [->|E]; [|subst p]; auto.
Qed.
Lemma dw_find xa va xb vb t cs0 cache clk : xa < xb -> exists cs clk',
  find_contacts o hd (dw xa va xb vb t cs0 cache clk) = Ok (dw xa va xb vb t cs cache clk') /\ contacts_of (gap d xa xb) cs.
Proof.
  intros Hx. unfold find_contacts. change (w_clk (dw xa va xb vb t cs0 cache clk)) with clk.
  assert (G : forall p, o_collide o clk (map b_geom (w_bodies (dw xa va xb vb t cs0 cache clk))) = p -> p = [] -> eps < gap d xa xb).
  { intros p E1 E2. subst p. destruct Ho as (_ & C & _). destruct (Rle_dec (gap d xa xb) eps) as [L|L]; [exfalso|lra].
    specialize (C clk (map b_geom (w_bodies (dw xa va xb vb t cs0 cache clk))) 0%nat 1%nat (b_geom (ball_a xa va)) (b_geom (ball_b xb vb))).
    rewrite E2 in C. destruct Hd. unfold gap in L.
    destruct C as [[]|[]]; try discriminate; try reflexivity.
    unfold aabb_overlap, aabb_half, ball_a, ball_b. cbn. replace (0 - 0) with 0 by ring. rewrite Rabs_R0, (Rabs_left (xa - xb)) by lra. lra. }
  destruct (pairs_two clk (map b_geom (w_bodies (dw xa va xb vb t cs0 cache clk))) eq_refl) as [E|[E|E]]; rewrite E in *.
  - exists [], (S clk). split; [reflexivity|]. pose proof (G _ eq_refl eq_refl). split; [reflexivity|lra].
  - eexists _, _. split; [reflexivity|]. now apply contact_a.
  - eexists _, _. split; [reflexivity|]. now apply contact_b.
Qed.
Lemma world_M_at xa va xb vb : world_M [ball_a xa va; ball_b xb vb] = world_M [ball_a 0 0; ball_b 0 0].
Proof. reflexivity. Qed.
Lemma dw_move xa va xb vb t cs cache clk h : move_all (dw xa va xb vb t cs cache clk) h = Ok (dw (xa + h * va) va (xb + h * vb) vb t cs cache clk).
Proof. unfold move_all, dw. cbn [w_bodies map]. unfold ball_a, ball_b. rewrite !ball_move. reflexivity. Qed.
Lemma dw_set_v xa va xb vb t cs cache clk va' vb' c' : set_v (with_cache (dw xa va xb vb t cs cache clk) c') [0; va'; 0; 0; vb'; 0] = Ok (dw xa va' xb vb' t cs c' clk).
Proof. reflexivity. Qed.

(** *** the response *)
Lemma dw_forces xa va xb vb t cs cache clk s : world_apply_forces (dw xa va xb vb t cs cache clk) s = Ok [0; 0; 0; 0; 0; 0].
Proof. reflexivity. Qed.
Lemma inertia_pos r m : 0 < r -> 0 < m -> 0 < kind_inertia (KCircle r) m.
Proof. intros Hr Hm. cbn. rnum. assert (0 < m * r) by nra. nra. Qed.
(** velocities after the response *)
Definition after_a g va vb : R := if Rle_dec g eps then (if Rlt_dec vb va then va - lost d * (va - vb) else va) else va.
Definition after_b g va vb : R := if Rle_dec g eps then (if Rlt_dec vb va then vb + gained d * (va - vb) else vb) else vb.
Lemma dw_response xa va xb vb t cs cache clk h v imps : contacts_of (gap d xa xb) cs ->
  response (dw xa va xb vb t cs cache clk) h v imps -> v = [0; after_a (gap d xa xb) va vb; 0; 0; after_b (gap d xa xb) va vb; 0].
Proof.
  intros [C1 C2] (f & y & Ef & Lv & (L1 & L2 & B) & _ & F). rewrite dw_forces in Ef. injection Ef as <-.
  assert (y = []) as -> by (destruct y; [reflexivity|discriminate L2]). clear L2.
  do 6 (destruct v as [|? v]; [discriminate|]). destruct v; [|discriminate]. clear Lv.
  pose proof (inertia_pos ra ma) as Ia. pose proof (inertia_pos rb mb) as Ib. destruct Hd as [h1 h2 h3 h4 h5 h6 h7 h8]. specialize (Ia h1 h3). specialize (Ib h2 h4).
  set (ia := kind_inertia (KCircle ra) ma) in *. set (ib := kind_inertia (KCircle rb) mb) in *.
  pose proof (B [1; 0; 0; 0; 0; 0] eq_refl) as B1. pose proof (B [0; 1; 0; 0; 0; 0] eq_refl) as B2. pose proof (B [0; 0; 1; 0; 0; 0] eq_refl) as B3.
  pose proof (B [0; 0; 0; 1; 0; 0] eq_refl) as B4. pose proof (B [0; 0; 0; 0; 1; 0] eq_refl) as B5. pose proof (B [0; 0; 0; 0; 0; 1] eq_refl) as B6. clear B.
  unfold after_a, after_b. destruct (Rle_dec (gap d xa xb) eps) as [L|L].
  - destruct (C2 L) as (c & -> & (Hp & P1 & P2 & HN)). clear C1 C2. cbn [dw w_contacts] in F. inversion F as [|? [l tt] ? ? K F' E1 E2]; subst. inversion F'; subst. clear F F' L1.
    destruct K as [k1 k2 k3 k4 k5]. cbn [fst snd] in *.
    destruct c as [n p q pen i1 i2]. cbn [c_normal c_p1 c_p2 c_i1 c_i2 c_pen] in *. destruct p as [px py], q as [qx qy]. cbn [fst snd] in P1, P2. subst py qy.
    destruct HN as [(-> & -> & ->)|(-> & -> & ->)];
      unfold kinetic, contact_power, normal_velocity, slip_velocity, component, relative_velocity, point_velocity, v3_at, vget, dot, mixed, body_at, tangent, mapi in *;
      cbn in *; rnum.
    all: fold ia in B1, B2, B3, B4, B5, B6; fold ib in B1, B2, B3, B4, B5, B6.
    + destruct (no_swing ia ib ma mb px qx ((d_fa d + d_fb d) / 2 * l) r r1 r2 r4 tt) as (-> & -> & -> & ->); try assumption; try lra.
      { match type of k5 with tt * ?x = _ * Rabs ?y => replace y with x in k5 by ring; replace x with (r1 + r * px - r4 - r2 * qx) in k5 by ring end. lra. }
      destruct (along ma mb (d_rest d) va vb l r0 r3) as [-> ->]; try assumption; try lra; [unfold d_rest; lra|intros Hl; specialize (k3 Hl); unfold d_rest; lra|reflexivity].
    + destruct (no_swing ia ib ma mb qx px ((d_fb d + d_fa d) / 2 * l) r r1 r2 r4 tt) as (-> & -> & -> & ->); try assumption; try lra.
      { match type of k5 with tt * ?x = _ * Rabs ?y => replace y with x in k5 by ring; replace x with (r1 + r * qx - r4 - r2 * px) in k5 by ring end. lra. }
      destruct (along ma mb (d_rest d) va vb l r0 r3) as [-> ->]; try assumption; try lra; [unfold d_rest; lra|intros Hl; specialize (k3 Hl); unfold d_rest; lra|reflexivity].
  - rewrite (C1 ltac:(lra)) in *. destruct imps; [|discriminate L1]. unfold kinetic, contact_power, component, v3_at, vget, dot, mapi in *. cbn in *. rnum.
    fold ia in B1, B2, B3, B4, B5, B6; fold ib in B1, B2, B3, B4, B5, B6.
    assert (Z : forall a x y, 0 < a -> a * x = a * y -> x = y) by (intros a x y Ha E; apply (Rmult_eq_reg_l a); lra).
    rewrite (Z ia r 0 Ia), (Z ma r0 va h3), (Z ma r1 0 h3), (Z ib r2 0 Ib), (Z mb r3 vb h4), (Z mb r4 0 h4) by lra. reflexivity.
Qed.
(** *** one step *)
Lemma dw_step fuel e xa va xb vb t cs cache clk : xa < xb -> contacts_of (gap d xa xb) cs ->
  (exists v c imps, e_solve e (dw xa va xb vb t cs cache clk) dt = Ok (v, c) /\ response (dw xa va xb vb t cs cache clk) dt v imps) ->
  let va' := after_a (gap d xa xb) va vb in let vb' := after_b (gap d xa xb) va vb in
  - tol <= gap d (xa + dt * va') (xb + dt * vb') ->
  exists cs' cache' clk', step (S fuel) o hd e false (dw xa va xb vb t cs cache clk) = Ok (dw (xa + dt * va') va' (xb + dt * vb') vb' (t + dt) cs' cache' clk') /\
    contacts_of (gap d (xa + dt * va') (xb + dt * vb')) cs'.
Proof.
  intros Hx HC (v & c & imps & Es & Hr) va' vb' Hg. apply dw_response in Hr; [|exact HC]. subst v. fold va' vb' in Es.
  assert (Hx' : xa + dt * va' < xb + dt * vb') by (destruct Hd; unfold gap in Hg; lra).
  destruct (dw_find (xa + dt * va') va' (xb + dt * vb') vb' t cs c clk Hx') as (cs' & clk' & Ef & HC').
  exists cs', c, clk'. split; [|exact HC']. unfold step, step_dt. cbn [w_dt dw]. rewrite Es. cbn [bind]. fold (dw xa va xb vb t cs cache clk).
  rewrite dw_set_v. cbn [bind step_loop]. rewrite dw_move. cbn [bind]. rewrite Ef. cbn [bind].
  assert (NP : no_penetration (dw (xa + dt * va') va' (xb + dt * vb') vb' t cs' c clk') = true).
  { unfold no_penetration. cbn [w_contacts w_tol dw]. destruct HC' as [C1 C2]. destruct (Rle_dec (gap d (xa + dt * va') (xb + dt * vb')) eps) as [L|L].
    - destruct (C2 L) as (k & -> & (Hp & _)). cbn [forallb]. rewrite Hp, andb_true_r. rnum. apply Rleb_true. lra.
    - rewrite (C1 ltac:(lra)). reflexivity. }
  rewrite NP. reflexivity.
Qed.
Lemma dw_start xa xb u : 0 <= gap d xa xb -> exists cs clk, duel_start o hd d xa xb u = Ok (dw xa u xb 0 0 cs None clk) /\ contacts_of (gap d xa xb) cs.
Proof.
  intros Hg. assert (Hx : xa < xb) by (destruct Hd; unfold gap in Hg; lra).
  destruct (dw_find xa u xb 0 0 [] None 0%nat Hx) as (cs & clk & Ef & HC). exists cs, clk. split; [|exact HC].
  assert (E : duel_start o hd d xa xb u = do w2 <- find_contacts o hd (dw xa u xb 0 0 [] None 0); if d_strict d && negb (no_penetration w2) then Err EAssert else Ok w2) by reflexivity.
  rewrite E, Ef. cbn [bind]. destruct (d_strict d); [|reflexivity]. cbn [andb].
  assert (NP : no_penetration (dw xa u xb 0 0 cs None clk) = true).
  { unfold no_penetration. cbn [w_contacts w_tol dw]. destruct HC as [C1 C2]. destruct (Rle_dec (gap d xa xb) eps) as [L|L].
    - destruct (C2 L) as (k & -> & (Hp & _)). cbn [forallb]. rewrite Hp, andb_true_r. rnum. apply Rleb_true. destruct Hd; lra.
    - rewrite (C1 ltac:(lra)). reflexivity. }
  rewrite NP. reflexivity.
Qed.
(** *** the run *)
Lemma after_snoc fuel e n xa xb u : duel_after fuel o hd e d (S n) xa xb u = do w <- duel_after fuel o hd e d n xa xb u; step fuel o hd e false w.
Proof.
  unfold duel_after. destruct (duel_start o hd d xa xb u) as [w0|]; [cbn [bind]|reflexivity].
  revert w0. induction n as [|n IH]; intros w0.
  - cbn [repeat exec bind]. destruct (step fuel o hd e false w0); reflexivity.
  - change (exec fuel o hd e (repeat (OStep false) (S (S n))) w0) with (do w' <- step fuel o hd e false w0; exec fuel o hd e (repeat (OStep false) (S n)) w').
    change (exec fuel o hd e (repeat (OStep false) (S n)) w0) with (do w' <- step fuel o hd e false w0; exec fuel o hd e (repeat (OStep false) n) w').
    destruct (step fuel o hd e false w0); [cbn [bind]; apply IH|reflexivity].
Qed.
Variables (fuel : nat) (e : engine R) (xa xb u : R).
Hypotheses (Hu : 0 < u) (Hg0 : 0 <= gap d xa xb) (Hfast : u * dt <= eps + tol).
Notation g0 := (gap d xa xb).
Notation far := (fun j => eps < g0 - INR j * (u * dt)).
Definition exact_at n := forall w, duel_after (S fuel) o hd e d n xa xb u = Ok w -> exists v c imps, e_solve e w (w_dt w) = Ok (v, c) /\ response w (w_dt w) v imps.
(** state after [n] steps if the contact was noticed after [k] *)
Definition stage (n k : nat) (w : world R) : Prop :=
  exists cs cache clk, let s := INR (n - k) * dt in let X := xa + INR n * (u * dt) - lost d * u * s in let Y := xb + gained d * u * s in
    w = dw X (if (n <=? k)%nat then u else u - lost d * u) Y (if (n <=? k)%nat then 0 else gained d * u) (INR n * dt) cs cache clk /\ contacts_of (gap d X Y) cs.
Lemma shares : lost d + gained d = 1 + d_rest d.
Proof. unfold lost, gained. destruct Hd. field. lra. Qed.
Lemma stage_gap n k : gap d (xa + INR n * (u * dt) - lost d * u * (INR (n - k) * dt)) (xb + gained d * u * (INR (n - k) * dt)) = g0 - INR n * (u * dt) + (1 + d_rest d) * (INR (n - k) * (u * dt)).
Proof. unfold gap. rewrite <- shares. ring. Qed.
Lemma run_stage n k : (forall m, (m < n)%nat -> exact_at m) -> (forall j, (j < k)%nat -> far j) -> (n <= k)%nat \/ g0 - INR k * (u * dt) <= eps ->
  exists w, duel_after (S fuel) o hd e d n xa xb u = Ok w /\ stage n k w.
Proof.
  assert (Hud : 0 < u * dt) by (destruct Hd; nra).
  induction n as [|n IH]; intros Hex Hfar Hk.
  - destruct (dw_start xa xb u Hg0) as (cs & clk & Es & HC). exists (dw xa u xb 0 0 cs None clk). split; [unfold duel_after; rewrite Es; reflexivity|].
    exists cs, None, clk. cbn zeta. cbn [Nat.sub INR Nat.leb]. rewrite !Rmult_0_l, !Rmult_0_r, Rminus_0_r, !Rplus_0_r. auto.
  - destruct IH as (w & Ew & Hs); [intros; apply Hex; lia|exact Hfar|destruct Hk as [Hk|Hk]; [left; lia|right; exact Hk]|].
    destruct (Hex n ltac:(lia) w Ew) as (v & c & imps & Ea & Hr). destruct Hs as (cs & cache & clk & -> & HC). cbn zeta in *. cbn [w_dt dw] in Ea, Hr.
    rewrite after_snoc, Ew. cbn [bind]. rewrite stage_gap in HC.
    set (X := xa + INR n * (u * dt) - lost d * u * (INR (n - k) * dt)) in *. set (Y := xb + gained d * u * (INR (n - k) * dt)) in *.
    set (va := if (n <=? k)%nat then u else u - lost d * u) in *. set (vb := if (n <=? k)%nat then 0 else gained d * u) in *.
    assert (HG : gap d X Y = g0 - INR n * (u * dt) + (1 + d_rest d) * (INR (n - k) * (u * dt))) by apply stage_gap.
    (* the gap now *)
    assert (Hlow : - tol <= gap d X Y /\ ((n < k)%nat -> eps < gap d X Y) /\ ((k <= n)%nat -> gap d X Y = g0 - INR k * (u * dt) + d_rest d * (INR (n - k) * (u * dt)))).
    { assert (Lk : - tol <= g0 - INR k * (u * dt)).
      { destruct k as [|k]; [cbn [INR]; destruct Hd; lra|]. pose proof (Hfar k ltac:(lia)) as F. cbn beta in F. rewrite S_INR. lra. }
      split; [|split].
      - destruct (le_lt_dec k n) as [L|L].
        + rewrite HG. assert (En : INR n = INR k + INR (n - k)) by (rewrite <- plus_INR; f_equal; lia). rewrite En at 1. pose proof (pos_INR (n - k)) as P. destruct Hd.
          assert (0 <= d_rest d * (INR (n - k) * (u * dt))) by (apply Rmult_le_pos; [lra|nra]). lra.
        + rewrite HG. replace (n - k)%nat with 0%nat by lia. cbn [INR]. pose proof (Hfar n L) as F. cbn beta in F. destruct Hd. lra.
      - intros L. rewrite HG. replace (n - k)%nat with 0%nat by lia. cbn [INR]. pose proof (Hfar n L) as F. cbn beta in F. lra.
      - intros L. rewrite HG. assert (En : INR n = INR k + INR (n - k)) by (rewrite <- plus_INR; f_equal; lia). rewrite En at 1. ring. }
    destruct Hlow as (Hlow & Hbefore & Hafter).
    (* the velocities of this step *)
    assert (HV : after_a (gap d X Y) va vb = (if (S n <=? k)%nat then u else u - lost d * u) /\ after_b (gap d X Y) va vb = (if (S n <=? k)%nat then 0 else gained d * u)).
    { unfold after_a, after_b, va, vb. destruct (lt_eq_lt_dec n k) as [[L|L]|L].
      - rewrite (proj2 (Nat.leb_le n k)), (proj2 (Nat.leb_le (S n) k)) by lia. destruct (Rle_dec (gap d X Y) eps); [specialize (Hbefore L); lra|auto].
      - subst k. rewrite Nat.leb_refl, (proj2 (Nat.leb_gt (S n) n)) by lia. destruct Hk as [Hk|Hk]; [lia|].
        specialize (Hafter ltac:(lia)). rewrite Nat.sub_diag in Hafter. cbn [INR] in Hafter. destruct (Rle_dec (gap d X Y) eps); [|lra]. destruct (Rlt_dec 0 u); [|lra]. split; ring.
      - rewrite (proj2 (Nat.leb_gt n k)), (proj2 (Nat.leb_gt (S n) k)) by lia.
        destruct (Rlt_dec (gained d * u) (u - lost d * u)) as [Q|Q]; [exfalso|destruct (Rle_dec (gap d X Y) eps); auto].
        pose proof shares as P. destruct Hd. assert (0 <= d_rest d * u) by nra. assert ((lost d + gained d) * u = (1 + d_rest d) * u) by now rewrite P. lra. }
    destruct HV as [HVa HVb].
    assert (EX : X + dt * after_a (gap d X Y) va vb = xa + INR (S n) * (u * dt) - lost d * u * (INR (S n - k) * dt)).
    { rewrite HVa. unfold X. rewrite S_INR. destruct (le_lt_dec (S n) k) as [L|L].
      - rewrite (proj2 (Nat.leb_le (S n) k)) by lia. replace (S n - k)%nat with 0%nat by lia. replace (n - k)%nat with 0%nat by lia. cbn [INR]. ring.
      - rewrite (proj2 (Nat.leb_gt (S n) k)) by lia. replace (S n - k)%nat with (S (n - k)) by lia. rewrite S_INR. ring. }
    assert (EY : Y + dt * after_b (gap d X Y) va vb = xb + gained d * u * (INR (S n - k) * dt)).
    { rewrite HVb. unfold Y. destruct (le_lt_dec (S n) k) as [L|L].
      - rewrite (proj2 (Nat.leb_le (S n) k)) by lia. replace (S n - k)%nat with 0%nat by lia. replace (n - k)%nat with 0%nat by lia. cbn [INR]. ring.
      - rewrite (proj2 (Nat.leb_gt (S n) k)) by lia. replace (S n - k)%nat with (S (n - k)) by lia. rewrite S_INR. ring. }
    assert (HX : X < Y) by (destruct Hd; unfold gap in Hlow; lra).
    assert (Hnext : - tol <= gap d (X + dt * after_a (gap d X Y) va vb) (Y + dt * after_b (gap d X Y) va vb)).
    { rewrite EX, EY, stage_gap. destruct (le_lt_dec (S n) k) as [L|L].
      - replace (S n - k)%nat with 0%nat by lia. cbn [INR]. pose proof (Hfar n ltac:(lia)) as F. cbn beta in F. change (match n with 0%nat => 1 | S _ => INR n + 1 end) with (INR (S n)). rewrite S_INR. lra.
      - assert (L' : (k <= n)%nat) by lia. specialize (Hafter L'). replace (S n - k)%nat with (S (n - k)) by lia. rewrite !S_INR.
        assert (En : INR n = INR k + INR (n - k)) by (rewrite <- plus_INR; f_equal; lia). rewrite En at 1. destruct Hd. assert (0 <= d_rest d * (u * dt)) by nra. lra. }
    rewrite <- HG in HC.
    destruct (dw_step fuel e X va Y vb (INR n * dt) cs cache clk HX HC) as (cs' & cache' & clk' & Es & HC'); [exists v, c, imps; auto|exact Hnext|].
    rewrite EX, EY in *. rewrite HVa, HVb in Es. eexists. split; [exact Es|]. exists cs', cache', clk'. cbn zeta. split; [|exact HC'].
    replace (INR n * dt + dt) with (INR (S n) * dt) by (rewrite S_INR; ring). reflexivity.
Qed.
End Duel.
