(** Overlapping convex polygons: the separating-axis test and the face clipping find a contact *)
From Coq Require Import List Arith ZArith Bool Reals Lra Lia Psatz.
From Verif Require Import Num Tensor Utils Bodies Forces Constraints Contacts World Spec ResFacts RBase GeoSpec BodySpec ContactSpec
     BodyFacts RigidFacts GeomFacts HandlerFacts BodyReach PlaneFacts SupportFacts SatFacts ClipFacts GjkFacts GjkLoop GjkTerm HellyFacts ContactFacts.
Import ListNotations.
Open Scope R_scope.

Lemma outward_unit p q : p <> q -> unit_vec (outward p q).
Proof.
  intros H. apply dist_pos in H. pose proof (dist_sq p q) as E. unfold unit_vec, outward. cbn [fst snd]. set (D := dist p q) in *.
  apply (Rmult_eq_reg_r (D * D)); [|nra]. transitivity ((snd q - snd p) * (snd q - snd p) + (fst q - fst p) * (fst q - fst p)); [field; lra|]. rewrite E. ring.
Qed.
Lemma edge_dist_push e x k : fst e <> snd e -> edge_dist e (v2add x (v2scale k (outward (fst e) (snd e)))) = edge_dist e x + k.
Proof.
  intros H. apply dist_pos in H. destruct e as [p q]. unfold edge_dist, outward, tri2, det2, v2add, v2scale. rnum. cbn [fst snd] in *.
  pose proof (dist_sq p q) as E. set (D := dist p q) in *. set (ex := fst q - fst p). set (ey := snd q - snd p). set (u := fst x - fst p). set (v := snd x - snd p).
  assert (Q : D * D = ex * ex + ey * ey) by (rewrite E; unfold ex, ey; ring).
  apply (Rmult_eq_reg_r (D * D)); [|nra].
  transitivity (- (ex * v - ey * u) * D + k * (ex * ex + ey * ey)); [unfold u, v; field; lra|]. rewrite <- Q. field. lra.
Qed.
Lemma dist_push (x : pt) k n : unit_vec n -> 0 <= k -> dist x (v2add x (v2scale k n)) = k.
Proof.
  intros Hn Hk. pose proof (dist_sq x (v2add x (v2scale k n))) as E. pose proof (dist_nonneg x (v2add x (v2scale k n))) as P. set (D := dist _ _) in *.
  assert (D * D = k * k). { rewrite E. unfold v2add, v2scale, unit_vec in *. rnum. cbn [fst snd]. transitivity (k * k * (fst n * fst n + snd n * snd n)); [ring|rewrite Hn; ring]. }
  nra.
Qed.
Lemma dist_push' (x : pt) k n : unit_vec n -> 0 <= k -> dist x (v2add x (v2scale (- k) n)) = k.
Proof.
  intros Hn Hk. replace (v2scale (- k) n) with (v2scale k (v2opp n)) by (unfold v2scale, v2opp; rnum; cbn [fst snd]; apply f_equal2; ring).
  apply dist_push; [now apply unit_opp|exact Hk].
Qed.
(** minimum translation: moved out along the normal of its least-penetrated edge, [Q] touches that edge *)
Lemma push_out P Q d a c s : strictly_convex P -> strictly_convex Q -> In (a, c) (edges P) -> separation Q d (a, c) s -> s <= 0 ->
  (forall e m, In e (edges P) -> separation Q d e m -> m <= s) -> (forall e m, In e (edges Q) -> separation P (v2opp d) e m -> m <= s) ->
  exists x, on_segment a c x /\ in_hull Q (v2sub (v2add x (v2scale s (outward a c))) d).
Proof.
  intros HP HQ He Hs Hneg MP MQ. set (n := outward a c). pose proof (strictly_proper _ HP _ _ He) as Hac.
  assert (Hn : unit_vec n) by (now apply outward_unit).
  assert (NP : P <> []) by (intros ->; destruct HP as (_ & H & _); cbn in H; lia). assert (NQ : Q <> []) by (intros ->; destruct HQ as (_ & H & _); cbn in H; lia).
  set (d' := v2add d (v2scale (- s) n)).
  destruct (sat_complete P Q d' HP HQ) as (x & X1 & X2).
  - intros e m Hin Hm. destruct (separation_exists Q d e NQ) as (m0 & Hm0). pose proof (MP e m0 Hin Hm0) as L. destruct Hm0 as ((v & Hv & Ev) & _). destruct Hm as [_ Hm]. pose proof (Hm v Hv) as L2. cbv beta in L2, Ev.
    assert (Hne : fst e <> snd e) by (destruct e; now apply (strictly_proper _ HP)).
    pose proof (edge_dist_lipschitz e (v2add v d) (v2add v d') Hne) as L3.
    replace (v2add v d') with (v2add (v2add v d) (v2scale (- s) n)) in * by (unfold d', v2add, v2scale; rnum; cbn [fst snd]; apply f_equal2; ring).
    rewrite dist_push in L3 by (auto; lra). lra.
  - intros e m Hin Hm. destruct (separation_exists P (v2opp d) e NP) as (m0 & Hm0). pose proof (MQ e m0 Hin Hm0) as L. destruct Hm0 as ((v & Hv & Ev) & _). destruct Hm as [_ Hm]. pose proof (Hm v Hv) as L2. cbv beta in L2, Ev.
    assert (Hne : fst e <> snd e) by (destruct e; now apply (strictly_proper _ HQ)).
    pose proof (edge_dist_lipschitz e (v2add v (v2opp d)) (v2add v (v2opp d')) Hne) as L3.
    replace (v2add v (v2opp d')) with (v2add (v2add v (v2opp d)) (v2scale (- - s) n)) in * by (unfold d', v2add, v2opp, v2scale; rnum; cbn [fst snd]; apply f_equal2; ring).
    rewrite dist_push' in L3 by (auto; lra). lra.
  - exists x. split.
    + assert (E0 : edge_dist (a, c) x <= 0) by (apply (convex_inside P); auto; now apply strictly_convex_convex).
      destruct (separation_exists Q d' (a, c) NQ) as (m0 & Hm0). pose proof (separation_outside _ _ _ _ _ Hm0 X2) as L. rewrite v2sub_add in L.
      destruct Hm0 as ((v & Hv & Ev) & _). cbv beta in Ev. destruct Hs as [_ Hs]. pose proof (Hs v Hv) as L2. cbv beta in L2.
      replace (v2add v d') with (v2add (v2add v d) (v2scale (- s) n)) in Ev by (unfold d', v2add, v2scale; rnum; cbn [fst snd]; apply f_equal2; ring).
      rewrite (edge_dist_push (a, c) _ _ Hac) in Ev. apply (edge_segment P); auto; [apply hull_inside; auto; now apply strictly_convex_convex|].
      assert (Z : edge_dist (a, c) x = 0) by lra. unfold edge_dist in Z. cbn [fst snd] in Z. apply dist_pos in Hac.
      apply (Rmult_eq_compat_r (dist a c)) in Z. unfold Rdiv in Z. rewrite Rmult_assoc, Rinv_l in Z by lra. lra.
    + replace (v2sub (v2add x (v2scale s n)) d) with (v2sub x d'); [exact X2|]. unfold d', v2sub, v2add, v2scale. rnum. cbn [fst snd]. apply f_equal2; ring.
Qed.
(** the points of [Q] furthest in direction -n are on the incident edge *)
Lemma edge_normal_perp vs i : v2dot (edge_normal vs i) (v2sub (next_vert vs i) (vert vs i)) = 0.
Proof. unfold edge_normal, edge_vec, v2dot, v2div, left_orthogonal, v2sub. rnum. cbn [fst snd]. unfold Rdiv. ring. Qed.
Lemma unit_perp n m (w : pt) : unit_vec n -> unit_vec m -> w <> (0, 0) -> v2dot m w = 0 -> v2dot n w = 0 -> m = n \/ m = v2opp n.
Proof.
  intros Hn Hm Hw H1 H2. destruct n as [n1 n2], m as [m1 m2], w as [w1 w2]. unfold unit_vec, v2dot, v2opp in *. rnum. cbn [fst snd] in *.
  assert (D : m1 * n2 - m2 * n1 = 0).
  { assert (A : w1 * (m1 * n2 - m2 * n1) = 0) by (transitivity ((m1 * w1 + m2 * w2) * n2 - (n1 * w1 + n2 * w2) * m2); [ring|rewrite H1, H2; ring]).
    assert (B : w2 * (m1 * n2 - m2 * n1) = 0) by (transitivity ((n1 * w1 + n2 * w2) * m1 - (m1 * w1 + m2 * w2) * n1); [ring|rewrite H1, H2; ring]).
    destruct (Req_dec w1 0) as [->|W]; [|nra]. destruct (Req_dec w2 0) as [->|W]; [congruence|nra]. }
  set (g := m1 * n1 + m2 * n2).
  assert (E1 : m1 = g * n1). { transitivity (m1 * (n1 * n1 + n2 * n2)); [rewrite Hn; ring|]. unfold g. assert (K : n2 * (m1 * n2 - m2 * n1) = 0) by (rewrite D; ring). lra. }
  assert (E2 : m2 = g * n2). { transitivity (m2 * (n1 * n1 + n2 * n2)); [rewrite Hn; ring|]. unfold g. assert (K : n1 * (m1 * n2 - m2 * n1) = 0) by (rewrite D; ring). lra. }
  assert (G : g * g = 1). { rewrite E1, E2 in Hm. transitivity (g * g * (n1 * n1 + n2 * n2)); [rewrite Hn; ring|lra]. }
  assert (g = 1 \/ g = -1) as [Eg|Eg] by (assert ((g - 1) * (g + 1) = 0) by lra; destruct (Rmult_integral _ _ H); [left|right]; lra).
  - left. rewrite E1, E2, Eg. apply f_equal2; ring.
  - right. rewrite E1, E2, Eg. apply f_equal2; ring.
Qed.
Lemma min_on_incident vs n k z : strictly_convex vs -> unit_vec n -> (k < length vs)%nat -> (forall v, In v vs -> v2dot n (vert vs k) <= v2dot n v) ->
  inside vs z -> v2dot n z = v2dot n (vert vs k) -> let ie := get_incident_edge n vs k in on_segment (vert vs ie) (next_vert vs ie) z.
Proof.
  intros Hs Hn Hk Hmin Hz Ez. pose proof (strictly_proper _ Hs) as Hp. destruct (incident_edge n vs k Hk Hp Hn) as (I0 & I1 & I2 & I3). cbv zeta.
  set (m := ((k + (length vs - 1)) mod length vs)%nat) in *. set (ie := get_incident_edge n vs k) in *.
  destruct (corner_prev vs k Hs Hk) as (U1 & U2 & U3 & U4 & U5). fold m in U1, U2, U5.
  assert (Hm : (m < length vs)%nat) by (apply Nat.mod_upper_bound; lia). pose proof (next_of_prev vs k Hk) as Nx. fold m in Nx.
  set (u := vert vs m) in *. set (v := vert vs k) in *. set (w := next_vert vs k) in *.
  pose proof (Hmin u U1) as Lu. pose proof (Hmin w U4) as Lw. pose proof (Hz _ _ U2) as Zu. pose proof (Hz _ _ U3) as Zw.
  assert (E : tri2 v w z * (v2dot n u - v2dot n v) + tri2 u v z * (v2dot n w - v2dot n v) = 0).
  { transitivity (tri2 u v w * (v2dot n z - v2dot n v)); [unfold tri2, det2, v2dot; rnum; cbn [fst snd]; ring|rewrite Ez; ring]. }
  assert (T1 : 0 <= tri2 v w z * (v2dot n u - v2dot n v)) by (apply Rmult_le_pos; lra). assert (T2 : 0 <= tri2 u v z * (v2dot n w - v2dot n v)) by (apply Rmult_le_pos; lra).
  assert (Z1 : tri2 v w z * (v2dot n u - v2dot n v) = 0) by lra. assert (Z2 : tri2 u v z * (v2dot n w - v2dot n v) = 0) by lra.
  (* an edge perpendicular to n at the vertex has normal -n *)
  assert (Sub : forall x y : pt, v2dot n (v2sub x y) = v2dot n x - v2dot n y) by (intros; unfold v2dot, v2sub; rnum; cbn [fst snd]; ring).
  assert (Hnz : forall i, (i < length vs)%nat -> v2sub (next_vert vs i) (vert vs i) <> (0, 0)).
  { intros i Hi C. apply v2sub_zero in C. apply (Hp _ _ (edge_at_In vs i Hi)). now symmetry. }
  assert (Dn : forall q : pt, v2dot n q = v2dot q n) by (intros; unfold v2dot; rnum; ring).
  assert (Dopp : v2dot n (v2opp n) = -1) by (unfold unit_vec, v2dot, v2opp in *; rnum; cbn [fst snd]; lra).
  assert (Dself : v2dot n n = 1) by (unfold unit_vec, v2dot in *; rnum; lra).
  assert (NotBoth : v2dot n u = v2dot n v -> v2dot n w = v2dot n v -> False).
  { intros A B. assert (T : tri2 u v w * (fst n * fst n + snd n * snd n) = 0).
    { unfold tri2, det2, v2dot in *. rnum. cbn [fst snd]. 
      set (a1 := fst v - fst u) in *. set (a2 := snd v - snd u) in *. set (b1 := fst w - fst u) in *. set (b2 := snd w - snd u) in *.
      assert (A' : fst n * a1 + snd n * a2 = 0) by (unfold a1, a2; lra). assert (B' : fst n * b1 + snd n * b2 = 0) by (unfold b1, b2; lra).
      transitivity ((fst n * a1 + snd n * a2) * (fst n * b2 - snd n * b1) - (fst n * b1 + snd n * b2) * (fst n * a2 - snd n * a1)); [ring|rewrite A', B'; ring]. }
    rewrite (Hn : fst n * fst n + snd n * snd n = 1) in T. lra. }
  destruct (Req_dec (v2dot n u) (v2dot n v)) as [Eu|Eu].
  - (* the edge before is flat *)
    assert (Lw' : v2dot n v < v2dot n w) by (destruct (Req_dec (v2dot n w) (v2dot n v)); [exfalso; auto|lra]).
    assert (Zz : tri2 u v z = 0) by nra.
    assert (Em : ie = m).
    { assert (Gm : v2dot n (edge_normal vs m) = -1).
      { pose proof (edge_normal_perp vs m) as Pm. rewrite Nx in Pm. fold u v in Pm.
        destruct (unit_perp n (edge_normal vs m) (v2sub v u) Hn (edge_normal_unit vs m Hm Hp)) as [Q|Q]; auto.
        - pose proof (Hnz m Hm) as Hne. rewrite Nx in Hne. exact Hne.
        - rewrite Sub. lra.
        - exfalso. pose proof (edge_normal_dist vs m w) as Ed. rewrite Q in Ed. fold u in Ed. rewrite Sub in Ed.
          pose proof (convex_inside vs (edge_at vs m) w (strictly_convex_convex _ Hs) (edge_at_In vs m Hm) (Hp _ _ (edge_at_In vs m Hm)) (in_hull_vertex _ _ U4)). lra.
        - rewrite Q. exact Dopp. }
      destruct I0 as [I0|I0]; [exact I0|exfalso]. rewrite I0 in I2.
      pose proof (unit_dot_bound _ _ Hn (edge_normal_unit vs k Hk Hp)) as B.
      assert (Gk : v2dot n (edge_normal vs k) = -1) by lra.
      assert (Ek : edge_normal vs k = v2opp n).
      { pose proof (edge_normal_unit vs k Hk Hp) as Uk. destruct (edge_normal vs k) as [k1 k2]. destruct n as [n1 n2]. unfold unit_vec, v2dot, v2opp in *. rnum. cbn [fst snd] in *.
        assert (S0 : (k1 + n1) * (k1 + n1) + (k2 + n2) * (k2 + n2) = 0) by lra. apply sumsq0 in S0. apply f_equal2; lra. }
      pose proof (edge_normal_perp vs k) as Pk. rewrite Ek in Pk. fold v w in Pk. unfold v2dot, v2opp, v2sub in *. rnum. cbn [fst snd] in *. lra. }
    rewrite Em, Nx. fold u v. apply (edge_segment vs); auto.
  - assert (Zw0 : tri2 v w z = 0) by nra. destruct (Req_dec (v2dot n w) (v2dot n v)) as [Ew|Ew].
    + (* the edge after is flat *)
      assert (Em : ie = k).
      { assert (Gk : v2dot n (edge_normal vs k) = -1).
        { pose proof (edge_normal_perp vs k) as Pk. fold v w in Pk.
          destruct (unit_perp n (edge_normal vs k) (v2sub w v) Hn (edge_normal_unit vs k Hk Hp)) as [Q|Q]; auto.
          - exact (Hnz k Hk).
          - rewrite Sub. lra.
          - exfalso. pose proof (edge_normal_dist vs k u) as Ed. rewrite Q in Ed. fold v in Ed. rewrite Sub in Ed.
            pose proof (convex_inside vs (edge_at vs k) u (strictly_convex_convex _ Hs) (edge_at_In vs k Hk) (Hp _ _ (edge_at_In vs k Hk)) (in_hull_vertex _ _ U1)). lra.
          - rewrite Q. exact Dopp. }
        destruct I0 as [I0|I0]; [|exact I0]. exfalso. rewrite I0 in I3.
        pose proof (unit_dot_bound _ _ Hn (edge_normal_unit vs m Hm Hp)) as B.
        assert (Gm : v2dot n (edge_normal vs m) = -1) by lra.
        assert (Ek : edge_normal vs m = v2opp n).
        { pose proof (edge_normal_unit vs m Hm Hp) as Uk. destruct (edge_normal vs m) as [k1 k2]. destruct n as [n1 n2]. unfold unit_vec, v2dot, v2opp in *. rnum. cbn [fst snd] in *.
          assert (S0 : (k1 + n1) * (k1 + n1) + (k2 + n2) * (k2 + n2) = 0) by lra. apply sumsq0 in S0. apply f_equal2; lra. }
        pose proof (edge_normal_perp vs m) as Pk. rewrite Ek, Nx in Pk. fold u v in Pk. unfold v2dot, v2opp, v2sub in *. rnum. cbn [fst snd] in *. lra. }
      rewrite Em. fold v w. apply (edge_segment vs); auto.
    + (* a corner: z is the vertex *)
      assert (Zu0 : tri2 u v z = 0) by nra.
      assert (z = v).
      { assert (X : tri2 u v w * (fst z - fst v) = 0 /\ tri2 u v w * (snd z - snd v) = 0).
        { split; [transitivity (tri2 v w z * (fst u - fst v) + tri2 u v z * (fst w - fst v))|transitivity (tri2 v w z * (snd u - snd v) + tri2 u v z * (snd w - snd v))];
            try (unfold tri2, det2; cbn [fst snd]; ring); rewrite Zw0, Zu0; ring. }
        destruct X as [X Y]. destruct z as [z1 z2], v as [v1 v2]. cbn [fst snd] in *. apply f_equal2; nra. }
      subst z. destruct I0 as [I0|I0]; rewrite I0.
      * rewrite Nx. fold u v. exists 1. split; [lra|]. now rewrite along_1.
      * fold v w. exists 0. split; [lra|]. now rewrite along_0.
Qed.
(** *** face clipping of overlapping polygons *)
Lemma face_deepest ref inc i sup vtx eps s : strictly_convex (b_verts ref) -> strictly_convex (b_verts inc) -> inscribed (b_verts ref) ->
  (i < length (b_verts ref))%nat -> get_support (b_verts inc) (v2opp (edge_normal (b_verts ref) i)) = Ok (sup, vtx) ->
  s = sep_value ref inc i sup -> s <= 0 -> s <= eps ->
  (forall e m, In e (edges (b_verts ref)) -> separation (b_verts inc) (offset ref inc) e m -> m <= s) ->
  (forall e m, In e (edges (b_verts inc)) -> separation (b_verts ref) (v2opp (offset ref inc)) e m -> m <= s) ->
  exists x, In x (clip_face ref inc (edge_normal (b_verts ref) i) (v2norm (edge_vec (b_verts ref) i)) i vtx eps) /\ snd x <= s.
Proof.
  intros HP HQ Hins Hi Hsup Es Hneg Heps MP MQ. set (vs := b_verts ref) in *. set (n := edge_normal vs i). set (L := v2norm (edge_vec vs i)).
  set (a := vert vs i). set (c := next_vert vs i). pose proof (strictly_proper _ HP) as Hp.
  destruct (face_L ref i Hi Hp) as [HL EL]. fold vs L a c in HL, EL. pose proof (face_normal ref i Hi Hp) as En. fold vs n a c in En.
  pose proof (edge_at_In vs i Hi) as He. unfold edge_at in He. fold a c in He.
  pose proof (support_separation ref inc i sup vtx Hi Hsup) as Hsep. rewrite <- Es in Hsep. fold vs in Hsep. unfold edge_at in Hsep. fold a c in Hsep.
  destruct (push_out vs (b_verts inc) (offset ref inc) a c s HP HQ He Hsep Hneg MP MQ) as (x & (t & Ht & Ex) & Hz).
  rewrite <- En in Hz. set (y := v2add x (v2scale s n)) in *. set (z := v2sub y (offset ref inc)) in *.
  assert (Hn : unit_vec n) by (apply edge_normal_unit; auto).
  apply get_support_ok in Hsup as Hs. destruct Hs as (Hk & Esup & _ & Hmin & _).
  assert (Dn : forall k : R, v2dot n (v2scale k n) = k) by (intros k; unfold unit_vec, v2dot, v2scale in *; rnum; cbn [fst snd]; transitivity (k * (fst n * fst n + snd n * snd n)); [ring|rewrite Hn; ring]).
  assert (Dadd : forall u v : pt, v2dot n (v2add u v) = v2dot n u + v2dot n v) by (intros; unfold v2dot, v2add; rnum; cbn [fst snd]; ring).
  assert (Dsub : forall u v : pt, v2dot n (v2sub u v) = v2dot n u - v2dot n v) by (intros; unfold v2dot, v2sub; rnum; cbn [fst snd]; ring).
  assert (Dx : v2dot n x = v2dot n a).
  { rewrite Ex. pose proof (edge_normal_perp vs i) as P. fold n a c in P. transitivity (v2dot n a + t * v2dot n (v2sub c a)); [unfold v2dot, along, v2sub; rnum; cbn [fst snd]; ring|rewrite P; ring]. }
  assert (Dy : v2dot n (v2sub y a) = s) by (unfold y; rewrite Dsub, Dadd, Dn, Dx; ring).
  assert (Dz : v2dot n z = v2dot n (vert (b_verts inc) vtx)).
  { rewrite <- Esup. unfold sep_value in Es. fold vs n a in Es. rewrite !Dsub, Dadd in Es. unfold z. rewrite Dsub. unfold offset. rewrite !Dsub. rewrite Dsub in Dy. lra. }
  pose proof (min_on_incident (b_verts inc) n vtx z HQ Hn Hk) as Hie. cbv zeta in Hie. set (ie := get_incident_edge n (b_verts inc) vtx) in *.
  destruct Hie as (r & Hr & Ez).
  { intros v Hv. pose proof (Hmin v Hv) as M. rewrite Esup in M. change (edge_normal vs i) with n in M. assert (O : forall u : pt, v2dot u (v2opp n) = - v2dot n u) by (intros; unfold v2dot, v2opp; rnum; cbn [fst snd]; ring). rewrite !O in M. lra. }
  { apply hull_inside; [now apply strictly_convex_convex|exact Hz]. }
  { exact Dz. }
  set (w0 := v2sub (v2add (vert (b_verts inc) ie) (b_pos inc)) (b_pos ref)). set (w1 := v2sub (v2add (next_vert (b_verts inc) ie) (b_pos inc)) (b_pos ref)).
  assert (Hy : on_segment w0 w1 y).
  { exists r. split; [exact Hr|]. assert (Ey : y = v2add z (offset ref inc)) by (unfold z; now rewrite v2sub_add).
    rewrite Ey, Ez. unfold w0, w1, offset, along, v2add, v2sub. rnum. cbn [fst snd]. apply f_equal2; ring. }
  assert (Slab : pd (left_orthogonal n) (L / 2) y = L * (1 - t)).
  { pose proof (face_slab ref i Hi Hp y) as S. fold vs n L a c in S. rewrite S. unfold y. rewrite Ex, En. unfold outward. rewrite <- EL. unfold v2add, v2scale, along. rnum. cbn [fst snd].
    pose proof (dist_sq a c) as DS. rewrite <- EL in DS. pose proof (Hins _ _ He) as Heq.
    set (ex := fst c - fst a) in *. set (ey := snd c - snd a) in *.
    assert (Q : L * L = ex * ex + ey * ey) by (rewrite DS; unfold ex, ey; ring).
    assert (EA : ex * fst a + ey * snd a = - (L * L) / 2) by (rewrite Q; unfold ex, ey; lra).
    apply (Rmult_eq_reg_r L); [|lra].
    transitivity (L * L / 2 - (ex * fst a + ey * snd a + t * (ex * ex + ey * ey))); [field; lra|]. rewrite EA, <- Q. field. }
  assert (H1 : half_plane (left_orthogonal n) (L / 2) y) by (apply half_plane_pd; rewrite Slab; apply Rmult_le_pos; destruct Ht; lra).
  assert (H2 : half_plane (v2opp (left_orthogonal n)) (L / 2) y).
  { apply half_plane_pd. rewrite pd_opp, Slab. replace (2 * (L / 2) - L * (1 - t)) with (L * t) by field. apply Rmult_le_pos; lra. }
  destruct (clip_two w0 w1 (left_orthogonal n) (L / 2)) as (c0 & c1 & E1 & S1); [apply segment_meets; exists y; auto|].
  assert (Hy1 : on_segment c0 c1 y) by (apply S1; auto).
  destruct (clip_two c0 c1 (v2opp (left_orthogonal n)) (L / 2)) as (e0 & e1 & E2 & S2); [apply segment_meets; exists y; auto|].
  assert (Hy2 : on_segment e0 e1 y) by (apply S2; auto). destruct Hy2 as (q & Hq & Ey).
  assert (Lin : s = (1 - q) * v2dot n (v2sub e0 a) + q * v2dot n (v2sub e1 a)).
  { rewrite <- Dy, Ey. unfold v2dot, v2sub, along. rnum. cbn [fst snd]. ring. }
  unfold clip_face. fold ie w0 w1 vs. change (L / nofZ 2)%num with (L / 2)%R. rewrite E1, E2. cbn [flat_map]. fold a. rnum.
  set (X0 := v2dot n (v2sub e0 a)) in *. set (X1 := v2dot n (v2sub e1 a)) in *.
  assert (A : X0 <= s \/ X1 <= s).
  { clearbody X0 X1. destruct (Rle_lt_dec X0 s) as [A0|A0]; [auto|]. destruct (Rle_lt_dec X1 s) as [A1|A1]; [auto|]. exfalso. destruct (Rle_lt_dec q (1 / 2)) as [Q|Q].
    - assert (0 < (1 - q) * (X0 - s)) by (apply Rmult_lt_0_compat; lra). assert (0 <= q * (X1 - s)) by (apply Rmult_le_pos; lra). lra.
    - assert (0 <= (1 - q) * (X0 - s)) by (apply Rmult_le_pos; lra). assert (0 < q * (X1 - s)) by (apply Rmult_lt_0_compat; lra). lra. }
  destruct A as [A|A].
  - destruct (Rleb_spec X0 eps) as [A0|A0]; [|lra]. eexists. split; [left; reflexivity|exact A].
  - destruct (Rleb_spec X1 eps) as [A1|A1]; [|lra]. eexists. split; [apply in_or_app; right; left; reflexivity|exact A].
Qed.
Lemma face_overlap ref inc i sup vtx eps s : strictly_convex (b_verts ref) -> strictly_convex (b_verts inc) -> inscribed (b_verts ref) ->
  (i < length (b_verts ref))%nat -> get_support (b_verts inc) (v2opp (edge_normal (b_verts ref) i)) = Ok (sup, vtx) ->
  s = sep_value ref inc i sup -> s <= 0 -> s <= eps ->
  (forall e m, In e (edges (b_verts ref)) -> separation (b_verts inc) (offset ref inc) e m -> m <= s) ->
  (forall e m, In e (edges (b_verts inc)) -> separation (b_verts ref) (v2opp (offset ref inc)) e m -> m <= s) ->
  clip_face ref inc (edge_normal (b_verts ref) i) (v2norm (edge_vec (b_verts ref) i)) i vtx eps <> [].
Proof.
  intros HP HQ Hins Hi Hsup Es Hneg Heps MP MQ E. destruct (face_deepest ref inc i sup vtx eps s HP HQ Hins Hi Hsup Es Hneg Heps MP MQ) as (x & Hx & _).
  rewrite E in Hx. destruct Hx.
Qed.
Lemma hull_hull_overlap b1 b2 eps q ps b1' b2' : is_circle b1 = false -> is_circle b2 = false ->
  strictly_convex (b_verts b1) -> strictly_convex (b_verts b2) -> inscribed (b_verts b1) -> inscribed (b_verts b2) -> 0 <= eps ->
  body_points b1 q -> body_points b2 q -> hull_hull b1 b2 eps = Ok (ps, b1', b2') -> ps <> [].
Proof.
  intros C1 C2 S1 S2 I1 I2 He P1 P2 H. pose proof (strictly_convex_convex _ S1) as V1. pose proof (strictly_convex_convex _ S2) as V2.
  pose proof (strictly_proper _ S1) as R1. pose proof (strictly_proper _ S2) as R2.
  assert (N1 : (0 < length (b_verts b1))%nat) by (destruct S1 as (_ & S1 & _); lia). assert (N2 : (0 < length (b_verts b2))%nat) by (destruct S2 as (_ & S2 & _); lia).
  assert (D0 : dist q q = 0) by (now apply dist_zero).
  unfold hull_hull in H. bind_inv H as c1 E1. cbv zeta in H. rnum.
  assert (C1' : is_circle (set_last b1 (sep_idx c1)) = false) by (unfold is_circle, set_last in *; destruct b1 as [? k]; destruct k; auto).
  assert (P1' : body_points (set_last b1 (sep_idx c1)) q) by (apply polygon_points; auto; rewrite verts_set_last, pos_set_last; now apply polygon_points).
  pose proof (sat_disjoint _ _ _ _ _ _ C1 C2 V1 R1 N1 E1 P1 P2) as L1.
  destruct (Rltb_spec eps (sep_dist c1)) as [X|_]; [lra|]. bind_inv H as c2 E2.
  pose proof (sat_disjoint _ _ _ _ _ _ C2 C1' V2 R2 N2 E2 P2 P1') as L2.
  destruct (Rltb_spec eps (sep_dist c2)) as [X|_]; [lra|].
  destruct (sat_value _ _ _ _ N1 E1) as (_ & _ & M1). destruct (sat_value _ _ _ _ N2 E2) as (_ & _ & M2). rewrite verts_set_last in M2.
  assert (Off : offset b2 (set_last b1 (sep_idx c1)) = v2opp (offset b1 b2)).
  { unfold offset. rewrite pos_set_last. unfold v2sub, v2opp. rnum. cbn [fst snd]. apply f_equal2; ring. }
  rewrite Off in M2. destruct M1 as [M1|M1]; [lra|]. destruct M2 as [M2|M2]; [lra|].
  destruct (test_separations_inv _ _ _ _ N1 E1) as (J1 & (s1 & v1 & G1 & D1 & K1) & _).
  destruct (test_separations_inv _ _ _ _ N2 E2) as (J2 & (s2 & v2 & G2 & D2 & K2) & _). rewrite verts_set_last in G2.
  destruct (Rltb_spec (sep_dist c1) (sep_dist c2)) as [X|X].
  - destruct (sep_info c2) as [[[[[pa pb] nn] v] en]|]; [|discriminate]. destruct K2 as (-> & -> & ->). inversion H; subst; clear H.
    intros E. apply map_eq_nil in E. rewrite clip_face_last, v2opp2 in E. revert E. eapply (face_overlap b2 b1 (sep_idx c2) s2 v2 eps (sep_dist c2)); auto; try lra.
    + rewrite D2. unfold sep_value. now rewrite pos_set_last.
    + intros e m Hin Hm. apply (M2 e m Hin). replace (v2opp (offset b1 b2)) with (offset b2 b1); [exact Hm|]. unfold offset, v2sub, v2opp. rnum. cbn [fst snd]. apply f_equal2; ring.
    + intros e m Hin Hm. assert (m <= sep_dist c1); [|lra]. apply (M1 e m Hin). replace (offset b1 b2) with (v2opp (offset b2 b1)); [exact Hm|]. unfold offset, v2sub, v2opp. rnum. cbn [fst snd]. apply f_equal2; ring.
  - destruct (sep_info c1) as [[[[[pa pb] nn] v] en]|]; [|discriminate]. destruct K1 as (-> & -> & ->). inversion H; subst; clear H.
    intros E. apply map_eq_nil in E. rewrite clip_face_last, v2opp2 in E. revert E. eapply (face_overlap b1 b2 (sep_idx c1) s1 v1 eps (sep_dist c1)); auto; try lra.
    intros e m Hin Hm. assert (m <= sep_dist c2); [|lra]. apply (M2 e m Hin). exact Hm.
Qed.
(** hulls that share a point, seen through the separating-axis test *)
Lemma sat_exact b1 b2 eps c1 c2 : is_circle b1 = false -> is_circle b2 = false -> strictly_convex (b_verts b1) -> strictly_convex (b_verts b2) -> 0 <= eps ->
  test_separations b1 b2 eps = Ok c1 -> test_separations b2 b1 eps = Ok c2 ->
  ((exists q, body_points b1 q /\ body_points b2 q) <-> sep_dist c1 <= 0 /\ sep_dist c2 <= 0).
Proof.
  intros C1 C2 S1 S2 He E1 E2. pose proof (strictly_convex_convex _ S1) as V1. pose proof (strictly_convex_convex _ S2) as V2.
  pose proof (strictly_proper _ S1) as R1. pose proof (strictly_proper _ S2) as R2.
  assert (N1 : (0 < length (b_verts b1))%nat) by (destruct S1 as (_ & S1 & _); lia). assert (N2 : (0 < length (b_verts b2))%nat) by (destruct S2 as (_ & S2 & _); lia).
  split.
  - intros (q & P1 & P2). assert (D0 : dist q q = 0) by (now apply dist_zero). pose proof (sat_disjoint _ _ _ _ _ _ C1 C2 V1 R1 N1 E1 P1 P2). pose proof (sat_disjoint _ _ _ _ _ _ C2 C1 V2 R2 N2 E2 P2 P1). lra.
  - intros [L1 L2]. destruct (sat_value _ _ _ _ N1 E1) as (_ & _ & M1). destruct (sat_value _ _ _ _ N2 E2) as (_ & _ & M2).
    destruct M1 as [M1|M1]; [lra|]. destruct M2 as [M2|M2]; [lra|].
    destruct (sat_complete (b_verts b1) (b_verts b2) (offset b1 b2) S1 S2) as (x & X1 & X2).
    + intros e m Hin Hm. pose proof (M1 e m Hin Hm). lra.
    + intros e m Hin Hm. assert (m <= sep_dist c2); [|lra]. apply (M2 e m Hin). replace (offset b2 b1) with (v2opp (offset b1 b2)); [exact Hm|]. unfold offset, v2sub, v2opp. rnum. cbn [fst snd]. apply f_equal2; ring.
    + exists (v2add x (b_pos b1)). split; apply polygon_points; auto.
      * now rewrite v2add_sub.
      * replace (v2sub (v2add x (b_pos b1)) (b_pos b2)) with (v2sub x (offset b1 b2)); [exact X2|]. unfold offset, v2sub, v2add. rnum. cbn [fst snd]. apply f_equal2; ring.
Qed.
