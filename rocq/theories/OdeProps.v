From Coq Require Import List Arith ZArith Lia Bool Reals Lra.
From Verif Require Import Num Tensor Utils Bodies Forces Constraints Contacts World Lapack Pdipm Engines Spec GeoSpec BodySpec ContactSpec OdeSpec
     ResFacts RBase BodyFacts RigidFacts GeomFacts WorldFacts HandlerFacts HistFacts BodyReach PropBody PropContact OdeFacts.
Import ListNotations.
Open Scope R_scope.

Lemma disc_with_of e tol bs : Forall (disc_with e tol) bs -> Forall (disc_of e tol) bs.
Proof.
  intros H. eapply Forall_impl; [|exact H]. intros b (A & C & P & T & E). apply available_geom in A. destruct A as (G1 & G2 & _).
  unfold disc_of. split; [exact C|]. split; [exact P|]. split; [exact T|]. split; [|exact G1]. rewrite G2, E. unfold is_circle, b_rad in *. destruct (b_kind b); [reflexivity|discriminate|discriminate].
Qed.
Lemma runs gf o la mi heap bs js dt e tol fd fuel ops : ode_spheres o -> memoryless o -> Forall (disc_with e tol) bs ->
  agree same_but_eps
    (do w <- world_init o (ode_handler o) heap bs js dt e tol fd false true; exec fuel o (ode_handler o) (pdipm_engine la mi) ops w)
    (do w <- world_init o (diff_handler gf o) heap bs js dt (2 * e) tol fd false true; exec fuel o (diff_handler gf o) (pdipm_engine la mi) ops w).
Proof. intros Ho Hm Hb. apply disc_runs; [exact Ho|exact Hm|now apply disc_with_of]. Qed.
Lemma bind_ok {A B} (m : res A) (f : A -> res B) b : (do x <- m; f x) = Ok b -> exists a, m = Ok a /\ f a = Ok b.
Proof. destruct m; [eauto|discriminate]. Qed.
Lemma run_inv gf o la mi heap bs js dt e tol fd fuel ops w : ode_spheres o -> memoryless o -> Forall (disc_with e tol) bs ->
  (do w <- world_init o (ode_handler o) heap bs js dt e tol fd false true; exec fuel o (ode_handler o) (pdipm_engine la mi) ops w) = Ok w ->
  exists k, (do w <- world_init o (diff_handler gf o) heap bs js dt (2 * e) tol fd false true; exec fuel o (diff_handler gf o) (pdipm_engine la mi) ops w) = Ok (tweak w (w_contacts w) (2 * w_eps w) k) /\ good w /\ w_eps w = e.
Proof.
  intros Ho Hm Hb H. pose proof (disc_with_of _ _ _ Hb) as Hd. apply bind_ok in H. destruct H as (w0 & H0 & H).
  pose proof (init_agree gf o heap bs js dt e tol fd Ho Hm Hd) as I. rewrite H0 in I.
  destruct (world_init o (diff_handler gf o) _ _ _ _ _ _ _ _ _) as [w0'|]; cbn [agree] in I; [|contradiction]. destruct I as ((k & ->) & G). cbn [bind].
  pose proof (exec_agree gf o la mi fuel Ho Hm ops w0 k G) as L. rewrite H in L.
  destruct (exec fuel o (diff_handler gf o) _ _ _) as [w1'|] eqn:X; cbn [agree] in L; [|contradiction]. destruct L as ((k1 & ->) & G1). exists k1. split; [reflexivity|]. split; [exact G1|].
  apply exec_cfg in H. apply cfg_fields in H. apply world_init_inv in H0. assert (Q : w_eps w = w_eps w0) by tauto. rewrite Q. tauto.
Qed.
Lemma disc_reach o la mi heap bs js dt e tol fd fuel ops w b : Forall (disc_with e tol) bs ->
  (do w <- world_init o (ode_handler o) heap bs js dt e tol fd false true; exec fuel o (ode_handler o) (pdipm_engine la mi) ops w) = Ok w ->
  In b (w_bodies w) -> reachable_body b.
Proof.
  intros Hb H Hin. apply bind_ok in H. destruct H as (w0 & H0 & H). eapply RBworld; [apply (ode_handler_frame o)| |exact H0|exact H|exact Hin].
  eapply Forall_impl; [|exact Hb]. intros ? (A & _). exact A.
Qed.
Lemma disc_contacts o la mi heap bs js dt e tol fd fuel ops w i j b1 b2 : ode_spheres o -> memoryless o -> broadphase_complete o -> 0 <= e -> Forall (disc_with e tol) bs ->
  (do w <- world_init o (ode_handler o) heap bs js dt e tol fd false true; exec fuel o (ode_handler o) (pdipm_engine la mi) ops w) = Ok w ->
  i <> j -> nth_error (w_bodies w) i = Some b1 -> nth_error (w_bodies w) j = Some b2 -> b_pos b1 <> b_pos b2 -> ~ excluded b1 b2 -> ~ excluded b2 b1 ->
  ((exists c, In c (w_contacts w) /\ joins c i j) <-> gap b1 b2 <= 2 * e) /\
  (forall c, In c (w_contacts w) -> c_i1 c = i -> c_i2 c = j -> circle_contact b1 b2 c).
Proof.
  intros Ho Hm Hc He Hb H Hij N1 N2 Hne X1 X2.
  destruct (run_inv 0 _ _ _ _ _ _ _ _ _ _ _ _ _ Ho Hm Hb H) as (k & H' & (Hd & _) & Ee).
  assert (S' : simulated 0 o (tweak w (w_contacts w) (2 * w_eps w) k)).
  { apply bind_ok in H'. destruct H' as (w0 & H0 & H'). do 13 eexists. split; [|split; [exact H0|exact H']]. eapply Forall_impl; [|exact Hb]. intros ? (A & _). exact A. }
  unfold discs in Hd. rewrite Forall_forall in Hd.
  pose proof (Hd b1 (nth_error_In _ _ N1)) as (C1 & R1 & _ & S1 & _). pose proof (Hd b2 (nth_error_In _ _ N2)) as (C2 & R2 & _ & S2 & _).
  assert (Q : forall b, In b (w_bodies w) -> is_circle b = true -> g_shape (b_geom b) = GSphere (b_rad b + w_eps w) -> b_eps b = w_eps w).
  { intros b Hin C Sb. destruct (reachable_geom b) as (_ & G & _); [eapply disc_reach; eauto|]. rewrite Sb in G. unfold is_circle, b_rad in *. destruct (b_kind b); [|discriminate|discriminate]. cbn in G. injection G. lra. }
  pose proof (Q b1 (nth_error_In _ _ N1) C1 S1) as E1. pose proof (Q b2 (nth_error_In _ _ N2) C2 S2) as E2. split.
  - pose proof (C25_circle_contact_iff 0 o (tweak w (w_contacts w) (2 * w_eps w) k) i j b1 b2 S' Hc Hij N1 N2) as L. cbn [tweak w_contacts w_eps] in L. rewrite Ee in L. apply L; auto.
    unfold padded. cbn [tweak w_eps]. unfold solid, is_circle, b_rad in *. destruct (b_kind b1); [|discriminate|discriminate]. destruct (b_kind b2); [|discriminate|discriminate]. rewrite E1, E2, Ee. repeat split; lra.
  - intros c Hin I1 I2. destruct (C25_circle_contact_data 0 o (tweak w (w_contacts w) (2 * w_eps w) k) c b1 b2) as (U & P & Pn & A & M); auto; cbn [tweak w_bodies]; try congruence.
    unfold circle_contact. repeat (split; [assumption|]). split; [|split; assumption]. rewrite Pn. unfold gap. ring.
Qed.

Lemma extent_shape b m : reachable_body b -> extent b m -> g_shape (b_geom b) = GSphere (m + b_eps b).
Proof.
  intros Hr He. destruct (reachable_geom b Hr) as (_ & G & _). rewrite G. unfold extent in He. destruct (b_kind b) as [r|vs l|]; [now rewrite He| |contradiction]. cbn. f_equal. f_equal.
  destruct He as ((v & Hv & Hm) & Hle).
  assert (D : forall u : pt, dist u (0, 0) = sqrt (v2dot u u)) by (intros u; unfold dist, v2dot; cbn [fst snd]; rnum; f_equal; ring).
  apply Rle_antisym.
  - destruct vs as [|a vs]; [destruct Hv|]. assert (Mx : exists u, In u (a :: vs) /\ max_sq (a :: vs) = v2dot u u).
    { unfold max_sq. clear. assert (Z : forall l (x : R) (a : pt), x = v2dot a a -> exists u, In u (a :: l) /\ fold_left (fun m v => if (m <? v2dot v v)%num then v2dot v v else m) l x = v2dot u u).
      { induction l as [|c l IH]; intros x u ->; [exists u; split; [now left|reflexivity]|]. cbn [fold_left]. destruct (nltb _ _).
        - destruct (IH _ c eq_refl) as (z & Hz & E). exists z. split; [now right|exact E].
        - destruct (IH _ u eq_refl) as (z & Hz & E). exists z. split; [destruct Hz; [now left|right; now right]|exact E]. }
      apply Z. reflexivity. }
    destruct Mx as (u & Hu & ->). rewrite <- D. now apply Hle.
  - rewrite <- Hm, D. apply sqrt_le_1_alt. now apply max_sq_ge.
Qed.
Lemma sphere_call o e clk bs i1 i2 b1 b2 m1 m2 : ode_spheres o -> 0 <= e ->
  nth_error bs i1 = Some b1 -> nth_error bs i2 = Some b2 -> reachable_body b1 -> reachable_body b2 -> extent b1 m1 -> extent b2 m2 -> b_eps b1 = e -> b_eps b2 = e -> ~ excluded b1 b2 ->
  let d := dist (b_pos b1) (b_pos b2) in
  (m1 + m2 + 2 * e < d -> ode_handler o e clk bs i1 i2 = Ok ([], bs, S clk)) /\
  (0 < d <= m1 + m2 + 2 * e -> exists c, ode_handler o e clk bs i1 i2 = Ok ([c], bs, S clk) /\ c_i1 c = i1 /\ c_i2 c = i2 /\ c_pen c = m1 + m2 - d /\
     c_normal c = ((fst (b_pos b1) - fst (b_pos b2)) / d, (snd (b_pos b1) - snd (b_pos b2)) / d) /\ at_body b1 (c_p1 c) = at_body b2 (c_p2 c)).
Proof.
  intros Ho He N1 N2 Q1 Q2 X1 X2 E1 E2 Hx d. pose proof (extent_shape _ _ Q1 X1) as S1. pose proof (extent_shape _ _ Q2 X2) as S2.
  destruct (reachable_geom _ Q1) as (P1 & _). destruct (reachable_geom _ Q2) as (P2 & _). specialize (Ho clk _ _ _ _ S1 S2). rewrite P1, P2, E1, E2 in Ho.
  unfold sphere_answer in Ho. cbv zeta in Ho. fold d in Ho. destruct Ho as (A & B & _).
  assert (Xb : existsb (Nat.eqb (b_id b1)) (g_no_contact (b_geom b2)) = false).
  { destruct (existsb _ _) eqn:Z; [|reflexivity]. exfalso. apply existsb_exists in Z. destruct Z as (y & Hy & Ey). apply Nat.eqb_eq in Ey. subst y. now apply Hx. }
  unfold ode_handler, get_body. rewrite N1, N2. cbn [bind]. rewrite Xb, P1, P2. split.
  - intros F. rewrite A by lra. reflexivity.
  - intros (D0 & D1). rewrite B by lra. cbn [fold_left fst snd]. rnum. rewrite (proj2 (Rltb_false 0 0)) by lra. rewrite (proj2 (Rltb_false _ _)) by lra. cbn [app].
    eexists. split; [reflexivity|]. cbn [c_i1 c_i2 c_pen c_normal c_p1 c_p2]. split; [reflexivity|]. split; [reflexivity|]. split; [lra|]. split; [reflexivity|].
    unfold at_body, v2sub. rnum. cbn [fst snd]. f_equal; ring.
Qed.
