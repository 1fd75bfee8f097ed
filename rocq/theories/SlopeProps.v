(** A body that stands on fixed bodies: rest, the inclined plane, and the contacts of polygons (proofs for C91) *)
From Coq Require Import List Arith ZArith Lia Bool Reals Lra.
From Verif Require Import Num Tensor Utils Bodies Forces Constraints Contacts World Lapack Pdipm Lcp Engines
     Spec GeoSpec BodySpec JointSpec FreshSpec EngineSpec WellSpec ContactSpec ImpactSpec SlopeSpec LapackSpec KktSpec PdipmSpec
     RBase ResFacts LinAlg HandlerFacts EngineFacts ClipFacts SatFacts ContactFacts SlopeFacts.
Import ListNotations.
Open Scope R_scope.

Lemma rubbed_zero a x : 0 <= a -> (rubbed a x = 0 <-> Rabs x <= a).
Proof.
  intros H. unfold rubbed. destruct (clamp_cases a x H) as [[E E']|[[E E']|[E E']]]; rewrite E; split; intros L;
    try (apply Rabs_le; lra); unfold Rabs in *; destruct (Rcase_abs x); lra.
Qed.
Lemma scale_unit_zero n k : unit_vec n -> (v2scale k (tangent n) = (0, 0) <-> k = 0).
Proof.
  destruct n as [a b]. unfold unit_vec, v2scale, tangent. cbn [fst snd]. rnum. intros U. split.
  - intros H. apply (f_equal fst) in H as H1. apply (f_equal snd) in H as H2. cbn [fst snd] in H1, H2.
    transitivity (k * 1); [ring|]. rewrite <- U. transitivity ((k * b) * b - (k * - a) * a); [ring|]. rewrite H1, H2. ring.
  - intros ->. apply f_equal2; ring.
Qed.

Section Stands.
Variables (la : lapack R) (mi : nat) (bs : list (body R)) (js : list (joint R)) (w : world R).
Hypothesis HW : engine_world la mi bs js w.
Variables (dt : R) (f v : vecR) (imps : list (R * R)) (i : nat) (b : body R) (n : v2 R) (h mu : R).
Hypothesis Hf : world_apply_forces w (w_t w) = Ok f.
Hypothesis Hv : response w dt v imps.
Hypothesis Hb : nth_error (w_bodies w) i = Some b.
Hypothesis Hm : 0 < b_mass b.
Hypothesis HI : 0 < b_inertia b.
Hypothesis HT : stands w i n h mu.
Hypothesis Hmu : 0 <= mu.
Hypothesis Hdt : 0 < dt.

Lemma rest_iff F : v3_at f i = (0, F) -> component n F <= 0 -> b_v b = (0, (0, 0)) ->
  (v3_at v i = (0, (0, 0)) <-> Rabs (component (tangent n) F) <= mu * - component n F).
Proof.
  intros HF Hn H0. assert (Hs : b_v b = (0, v2scale 0 (tangent n))) by (rewrite H0; unfold v2scale; rnum; apply f_equal2; [reflexivity|apply f_equal2; ring]).
  pose proof (slides la mi bs js w HW dt f v imps i b n h mu 0 F Hf Hv Hb Hm HI HT Hmu HF ltac:(nra) Hs) as ->.
  set (Fn := component n F) in *. set (Ft := component (tangent n) F) in *. rewrite Rplus_0_l.
  assert (Ha : 0 <= mu * - (dt * Fn) / b_mass b) by (apply Rmult_le_pos; [apply Rmult_le_pos; nra|left; now apply Rinv_0_lt_compat]).
  assert (Ek : Rabs (dt * Ft / b_mass b) = dt / b_mass b * Rabs Ft).
  { unfold Rdiv. rewrite !Rabs_mult, (Rabs_pos_eq dt), (Rabs_pos_eq (/ b_mass b)); [ring|left; now apply Rinv_0_lt_compat|lra]. }
  assert (Hk : 0 < dt / b_mass b) by (apply Rmult_lt_0_compat; [exact Hdt|now apply Rinv_0_lt_compat]).
  assert (Ea : mu * - (dt * Fn) / b_mass b = dt / b_mass b * (mu * - Fn)) by (field; lra).
  transitivity (rubbed (mu * - (dt * Fn) / b_mass b) (dt * Ft / b_mass b) = 0).
  - split; intros E; [apply (scale_unit_zero n); [exact (st_unit _ _ _ _ _ HT)|congruence]|f_equal; apply scale_unit_zero; [exact (st_unit _ _ _ _ _ HT)|exact E]].
  - rewrite rubbed_zero by exact Ha. rewrite Ek, Ea. split; intros L; [apply (Rmult_le_reg_l _ _ _ Hk L)|apply Rmult_le_compat_l; lra].
Qed.
Lemma incline g s : v3_at f i = (0, (0, b_mass b * g)) -> 0 <= g -> snd n <= 0 -> b_v b = (0, v2scale s (tangent n)) ->
  v3_at v i = (0, v2scale (rubbed (dt * g * (mu * Rabs (snd n))) (s - dt * g * fst n)) (tangent n)).
Proof.
  intros HF Hg Hn Hs. assert (En : component n (0, b_mass b * g) = b_mass b * g * snd n) by (unfold component; cbn [fst snd]; ring).
  assert (Et : component (tangent n) (0, b_mass b * g) = - (b_mass b * g * fst n)) by (unfold component, tangent; cbn [fst snd]; ring).
  assert (Hmg : 0 <= b_mass b * g) by nra. assert (Hneg : dt * component n (0, b_mass b * g) <= 0) by (rewrite En; assert (0 <= dt * (b_mass b * g)) by nra; nra).
  rewrite (slides la mi bs js w HW dt f v imps i b n h mu s _ Hf Hv Hb Hm HI HT Hmu HF Hneg Hs), En, Et, (Rabs_left1 (snd n) Hn).
  do 3 f_equal; field; lra.
Qed.
(** the angle of repose *)
Lemma repose g : v3_at f i = (0, (0, b_mass b * g)) -> 0 < g -> snd n <= 0 -> b_v b = (0, (0, 0)) ->
  (v3_at v i = (0, (0, 0)) <-> Rabs (fst n) <= mu * Rabs (snd n)).
Proof.
  intros HF Hg Hn H0. assert (Hmg : 0 < b_mass b * g) by nra. rewrite (rest_iff _ HF); [|unfold component; cbn [fst snd]; nra|exact H0].
  unfold component, tangent. cbn [fst snd]. replace (snd n * 0 + - fst n * (b_mass b * g)) with (- (fst n * (b_mass b * g))) by ring.
  rewrite Rabs_Ropp, Rabs_mult, (Rabs_pos_eq (b_mass b * g)), (Rabs_left1 (snd n) Hn) by lra.
  split; intros L; [apply (Rmult_le_reg_r (b_mass b * g)); [exact Hmg|]|]; nra.
Qed.
End Stands.

(** *** the contacts of two polygons *)
Lemma hull_hull_edge b1 b2 eps ps b1' b2' : (0 < length (b_verts b1))%nat -> (0 < length (b_verts b2))%nat -> hull_hull b1 b2 eps = Ok (ps, b1', b2') ->
  (exists i, (i < length (b_verts b1))%nat /\ forall n p1 p2 pen, In (n, p1, p2, pen) ps -> exists d, face_point b1 b2 eps i p1 p2 d /\ n = v2opp (edge_normal (b_verts b1) i) /\ pen = - d) \/
  (exists i, (i < length (b_verts b2))%nat /\ forall n p1 p2 pen, In (n, p1, p2, pen) ps -> exists d, face_point b2 b1 eps i p2 p1 d /\ n = edge_normal (b_verts b2) i /\ pen = - d).
Proof.
  intros N1 N2 H. unfold hull_hull in H. bind_inv H as c1 E1. cbv zeta in H. rnum.
  destruct (Rltb_spec eps (sep_dist c1)) as [L1|L1]; [inversion H; subst; left; exists 0%nat; split; [exact N1|intros ? ? ? ? []]|]. bind_inv H as c2 E2.
  destruct (Rltb_spec eps (sep_dist c2)) as [L2|L2]; [inversion H; subst; left; exists 0%nat; split; [exact N1|intros ? ? ? ? []]|].
  destruct (test_separations_inv _ _ _ _ N1 E1) as (I1 & (s1 & v1 & G1 & D1 & M1) & _).
  destruct (test_separations_inv _ _ _ _ N2 E2) as (I2 & (s2 & v2 & G2 & D2 & M2) & _). rewrite verts_set_last in G2.
  destruct (Rltb (sep_dist c1) (sep_dist c2)).
  - right. exists (sep_idx c2). split; [exact I2|]. intros n p1 p2 pen Hp. destruct (sep_info c2) as [[[[[pa pb] nn] v] en]|]; [|discriminate]. destruct M2 as (-> & -> & ->). inversion H; subst; clear H.
    rewrite clip_face_last, ?v2opp2 in Hp. apply in_map_iff in Hp. destruct Hp as ([[ptr pti] d] & E & Hin). inversion E; subst.
    exists d. split; [|split; reflexivity]. split; [exact I2|]. exists s2, v2. split; [exact G2|rewrite ?v2opp2 in Hin; exact Hin].
  - left. exists (sep_idx c1). split; [exact I1|]. intros n p1 p2 pen Hp. destruct (sep_info c1) as [[[[[pa pb] nn] v] en]|]; [|discriminate]. destruct M1 as (-> & -> & ->). inversion H; subst; clear H.
    rewrite clip_face_last, ?v2opp2 in Hp. apply in_map_iff in Hp. destruct Hp as ([[ptr pti] d] & E & Hin). inversion E; subst.
    exists d. split; [|split; reflexivity]. split; [exact I1|]. exists s1, v1. split; [exact G1|rewrite ?v2opp2 in Hin; exact Hin].
Qed.
Lemma face_level ref inc eps i ptr pti d : proper_edges (b_verts ref) -> face_point ref inc eps i ptr pti d -> let n := edge_normal (b_verts ref) i in
  component n ptr = component n (vert (b_verts ref) i) /\ component n pti = component n (vert (b_verts ref) i) + component n (v2sub (b_pos ref) (b_pos inc)).
Proof.
  intros Hp (Hi & sup & vtx & _ & H) n. pose proof (edge_normal_unit (b_verts ref) i Hi Hp) as U. fold n in U, H. apply clip_face_pts in H. destruct H as (-> & _ & v & Ed & ->).
  assert (E : component n (v2add v (v2scale (- d) n)) = component n (vert (b_verts ref) i)).
  { rewrite Ed. revert U. unfold unit_vec, component, v2dot, v2add, v2sub, v2scale. destruct n as [a c]. cbn [fst snd]. rnum. set (q := vert (b_verts ref) i). intros U.
    transitivity (a * fst v + c * snd v - (a * (fst v - fst q) + c * (snd v - snd q)) * (a * a + c * c)); [ring|rewrite U; ring]. }
  split; [exact E|]. rewrite <- E. unfold component, v2add, v2sub. cbn [fst snd]. rnum. ring.
Qed.
Lemma level fuel o eps clk bs i1 i2 b1 b2 cs bs' clk' c c' : nth_error bs i1 = Some b1 -> nth_error bs i2 = Some b2 -> is_circle b1 = false -> is_circle b2 = false -> regular b1 b2 ->
  diff_handler fuel o eps clk bs i1 i2 = Ok (cs, bs', clk') -> In c cs -> In c' cs ->
  c_normal c' = c_normal c /\ component (c_normal c) (c_p1 c') = component (c_normal c) (c_p1 c) /\ component (c_normal c) (c_p2 c') = component (c_normal c) (c_p2 c).
Proof.
  intros H1 H2 C1 C2 Hreg H Hc Hc'. apply get_body_Ok in H1, H2. unfold diff_handler in H. rewrite H1, H2 in H. cbn [bind] in H. unfold regular in Hreg. rewrite C1, C2 in H, Hreg. destruct Hreg as [R1 R2].
  destruct (existsb _ _); [inversion H; subst; destruct Hc|]. cbn [andb orb] in H. bind_inv H as r E. destruct r as [[ps b1'] b2']. inversion H; subst; clear H.
  apply in_mk_contacts in Hc. destruct Hc as (n & p1 & p2 & pen & Hc & ->). apply in_mk_contacts in Hc'. destruct Hc' as (n' & p1' & p2' & pen' & Hc' & ->). cbn [c_normal c_p1 c_p2].
  assert (NZ : (0 < length (b_verts b1))%nat /\ (0 < length (b_verts b2))%nat).
  { unfold hull_hull in E. bind_inv E as c1 E1. unfold test_separations in E1. destruct (b_verts b1) as [|x l1] eqn:V1; [cbn in E1; discriminate|]. split; [cbn; lia|].
    cbv zeta in E. rnum. destruct (Rltb_spec eps (sep_dist c1)); [inversion E; subst; destruct Hc|]. bind_inv E as c2 E2. unfold test_separations in E2. destruct (b_verts b2); [cbn in E2; discriminate|cbn; lia]. }
  destruct NZ as [NZ1 NZ2]. assert (Eo : forall m q : pt, component (v2opp m) q = - component m q) by (intros m q; unfold component, v2opp; cbn [fst snd]; rnum; ring).
  destruct (hull_hull_edge _ _ _ _ _ _ NZ1 NZ2 E) as [(i & Hi & P)|(i & Hi & P)].
  - destruct (P _ _ _ _ Hc) as (d & F & -> & _), (P _ _ _ _ Hc') as (d' & F' & -> & _). destruct (face_level _ _ _ _ _ _ _ R1 F) as [A1 A2], (face_level _ _ _ _ _ _ _ R1 F') as [B1 B2].
    rewrite !Eo, A1, A2, B1, B2. repeat split; reflexivity.
  - destruct (P _ _ _ _ Hc) as (d & F & -> & _), (P _ _ _ _ Hc') as (d' & F' & -> & _). destruct (face_level _ _ _ _ _ _ _ R2 F) as [A1 A2], (face_level _ _ _ _ _ _ _ R2 F') as [B1 B2].
    rewrite A1, A2, B1, B2. repeat split; reflexivity.
Qed.
