(** the GJK loop *)
From Coq Require Import List Arith ZArith Bool Reals Lra Lia Psatz.
From Verif Require Import Num Tensor Utils Bodies Forces Constraints Contacts World Spec ResFacts RBase GeoSpec BodySpec ContactSpec
     BodyFacts RigidFacts GeomFacts HandlerFacts BodyReach PlaneFacts SupportFacts SatFacts GjkFacts.
Import ListNotations.
Open Scope R_scope.

Definition simplex_ok (vs : list pt) (sx : list nat) : Prop :=
  NoDup sx /\ (1 <= length sx <= 3)%nat /\ Forall (fun k => (k < length vs)%nat) sx.
Lemma NoDup_vert (vs : list pt) i j : NoDup vs -> (i < length vs)%nat -> (j < length vs)%nat -> vert vs i = vert vs j -> i = j.
Proof. intros H Hi Hj E. exact (proj1 (NoDup_nth vs v2zero) H i j Hi Hj E). Qed.
(** either the simplex is affinely independent or the three points are on a line and get_closest fails *)
Lemma simplex_cases vs sx p q ids : NoDup vs -> simplex_ok vs sx -> get_closest p (map (vert vs) sx) = Ok (q, ids) -> independent (map (vert vs) sx).
Proof.
  intros Hn (H1 & H2 & H3) H. destruct sx as [|i [|j [|k [|l sx]]]]; cbn in H2; try lia.
  - exact I.
  - cbn. intros E. inversion H3 as [|? ? Hi H4]; subst. inversion H4 as [|? ? Hj H5]; subst. apply NoDup_vert in E; auto.
    inversion H1 as [|? ? Hx _]; subst. apply Hx. left. reflexivity.
  - cbn in *. destruct (bary2 p (vert vs i) (vert vs j)). destruct (bary2 p (vert vs j) (vert vs k)). destruct (bary2 p (vert vs k) (vert vs i)).
    unfold bary3 in H. rewrite !det3_tri in H. intros E. rewrite E in H. rnum. unfold Reqb in H. destruct (Req_EM_T 0 0); [|lra]. discriminate.
Qed.
Lemma used_map vs sx ids : Forall (fun k => (k < length sx)%nat) ids -> used (map (vert vs) sx) ids = map (vert vs) (map (fun k => nth k sx 0%nat) ids).
Proof.
  intros H. unfold used. rewrite map_map. apply map_ext_in. intros k Hk. rewrite Forall_forall in H. specialize (H k Hk).
  rewrite (nth_indep _ _ (vert vs 0)) by (rewrite map_length; exact H). apply map_nth.
Qed.
Lemma NoDup_map_nth (sx ids : list nat) : NoDup sx -> NoDup ids -> Forall (fun k => (k < length sx)%nat) ids -> NoDup (map (fun k => nth k sx 0%nat) ids).
Proof.
  intros H1 H2 H3. induction H2 as [|k ids Hk H2 IH]; [constructor|]. inversion H3; subst. constructor; [|auto].
  intros Hin. apply in_map_iff in Hin. destruct Hin as (j & E & Hj). rewrite Forall_forall in H5. apply (proj1 (NoDup_nth sx 0%nat) H1) in E; auto. congruence.
Qed.
Lemma inner_two_perp a b p q : a <> b -> inner_mean [a; b] q -> nearest [a; b] p q ->
  exists v, q = along a b v /\ 0 < v < 1 /\ (fst p - fst q) * (fst b - fst a) + (snd p - snd q) * (snd b - snd a) = 0.
Proof.
  intros Hne (ws & L & F & S & X & Y) Hn. destruct ws as [|u [|v [|]]]; try discriminate.
  inversion F as [|? ? Hu F']; subst. inversion F' as [|? ? Hv _]; subst. unfold wsum in *. cbn in S, X, Y.
  exists v. assert (Eq : q = along a b v) by (unfold along; destruct q; cbn in *; apply f_equal2; nra).
  split; [exact Eq|]. split; [lra|].
  pose proof (nearest_cond_inv _ _ _ Hn a (or_introl eq_refl)) as A. pose proof (nearest_cond_inv _ _ _ Hn b (or_intror (or_introl eq_refl))) as B.
  set (g := (fst p - fst q) * (fst b - fst a) + (snd p - snd q) * (snd b - snd a)) in *.
  assert (A' : (fst p - fst q) * (fst a - fst q) + (snd p - snd q) * (snd a - snd q) = - v * g) by (rewrite Eq; unfold g; rewrite Eq; unfold along; cbn [fst snd]; ring).
  assert (B' : (fst p - fst q) * (fst b - fst q) + (snd p - snd q) * (snd b - snd q) = (1 - v) * g) by (rewrite Eq; unfold g; rewrite Eq; unfold along; cbn [fst snd]; ring).
  nra.
Qed.
(** the search direction points from the closest point to the query point *)
Definition search_dir (p q : pt) (us : list pt) : pt :=
  match us with
  | [a; b] => let d := left_orthogonal (v2sub a b) in if Rltb (v2dot d (v2sub p a)) 0 then v2opp d else d
  | _ => v2sub p q
  end.
Lemma search_dir_ok p q us : independent us -> (length us < 3)%nat -> inner_mean us q -> nearest us p q ->
  p = q \/ exists l, 0 < l /\ search_dir p q us = v2scale l (v2sub p q).
Proof.
  intros Hi Hl Hin Hn. destruct us as [|a [|b [|c us]]]; cbn in Hl; try lia; [destruct Hi| |].
  - right. exists 1. split; [lra|]. unfold search_dir, v2scale, v2sub. rnum. cbn. apply f_equal2; ring.
  - cbn in Hi. destruct (inner_two_perp a b p q Hi Hin Hn) as (v & Eq & Hv & Hp).
    destruct (v2_eq_dec p q) as [E|Hpq]; [left; exact E|right].
    set (ex := fst b - fst a) in *. set (ey := snd b - snd a) in *.
    assert (Pos : 0 < ex * ex + ey * ey). { apply dist_pos in Hi. pose proof (dist_sq a b) as DS. assert (dist a b * dist a b = ex * ex + ey * ey) by (rewrite DS; unfold ex, ey; ring). nra. }
    set (x := fst p - fst q) in *. set (y := snd p - snd q) in *.
    assert (Pxy : x * x + y * y <> 0).
    { intros C. apply sumsq0 in C. apply Hpq. destruct p, q; unfold x, y in C; cbn in C. apply f_equal2; lra. }
    assert (Dn : v2dot (left_orthogonal (v2sub a b)) (v2sub p a) = - ey * x + ex * y).
    { unfold x, y. rewrite Eq. unfold v2dot, left_orthogonal, v2sub, along, ex, ey. rnum. cbn [fst snd]. ring. }
    unfold search_dir. rewrite Dn.
    assert (K : (- ey * x + ex * y) * (- ey * x + ex * y) = (ex * ex + ey * ey) * (x * x + y * y) - (x * ex + y * ey) * (x * ex + y * ey)) by ring.
    rewrite Hp in K. pose proof (sumsq x y) as Qxy. assert (0 < (ex * ex + ey * ey) * (x * x + y * y)) by (apply Rmult_lt_0_compat; lra).
    set (k := - ey * x + ex * y) in *.
    assert (Hx : k * x = (x * x + y * y) * (- ey)). { unfold k. transitivity (- ey * (x * x + y * y) + y * (x * ex + y * ey)); [ring|rewrite Hp; ring]. }
    assert (Hy : k * y = (x * x + y * y) * ex). { unfold k. transitivity (ex * (x * x + y * y) - x * (x * ex + y * ey)); [ring|rewrite Hp; ring]. }
    destruct (Rltb_spec k 0) as [Lk|Lk].
    + exists (- k / (x * x + y * y)). split; [apply Rdiv_lt_0_compat; lra|].
      unfold v2opp, v2scale, left_orthogonal, v2sub. rnum. cbn [fst snd]. fold x y. apply f_equal2; apply (Rmult_eq_reg_r (x * x + y * y)); auto.
      * transitivity (- (k * x)); [rewrite Hx; unfold ey; ring|field; auto].
      * transitivity (- (k * y)); [rewrite Hy; unfold ex; ring|field; auto].
    + assert (k <> 0) by nra. exists (k / (x * x + y * y)). split; [apply Rdiv_lt_0_compat; lra|].
      unfold v2scale, left_orthogonal, v2sub. rnum. cbn [fst snd]. fold x y. apply f_equal2; apply (Rmult_eq_reg_r (x * x + y * y)); auto.
      * transitivity (k * x); [rewrite Hx; unfold ey; ring|field; auto].
      * transitivity (k * y); [rewrite Hy; unfold ex; ring|field; auto].
Qed.
(** the loop body with the search direction named *)
Definition gjk_dir (vs : list pt) (sx ids : list nat) (q tp : pt) : pt :=
  if Nat.eqb (length ids) 2 then
    let d := left_orthogonal (v2sub (vert vs (nth (nth 0 ids 0%nat) sx 0%nat)) (vert vs (nth (nth 1 ids 0%nat) sx 0%nat))) in
    if Rltb (v2dot d (v2sub tp (vert vs (nth (nth 0 ids 0%nat) sx 0%nat)))) 0 then v2opp d else d
  else v2sub tp q.
Lemma gjk_S fuel tp vs sx : gjk (S fuel) tp vs sx =
  (do cl <- get_closest tp (map (vert vs) sx);
   if Nat.eqb (length (snd cl)) 3 then Ok (fst cl, snd cl)
   else if (Reqb (fst (gjk_dir vs sx (snd cl) (fst cl) tp)) 0 && Reqb (snd (gjk_dir vs sx (snd cl) (fst cl) tp)) 0)%bool then Ok (fst cl, snd cl)
     else do sup <- get_support vs (gjk_dir vs sx (snd cl) (fst cl) tp);
          if existsb (Nat.eqb (snd sup)) sx then Ok (fst cl, snd cl) else gjk fuel tp vs (map (fun k => nth k sx 0%nat) (snd cl) ++ [snd sup])).
Proof. cbn [gjk]. destruct (get_closest tp (map (vert vs) sx)) as [[q ids]|]; reflexivity. Qed.
Lemma gjk_search vs sx ids q tp : (length ids = 1 \/ length ids = 2)%nat ->
  gjk_dir vs sx ids q tp = search_dir tp q (map (vert vs) (map (fun k => nth k sx 0%nat) ids)).
Proof. intros H. destruct ids as [|i [|j [|k ids]]]; cbn in H; try lia; reflexivity. Qed.

Definition gjk_post (vs : list pt) (p q : pt) (ids : list nat) : Prop :=
  nearest vs p q /\
  ((length ids < 3)%nat -> exists u v, In u vs /\ In v vs /\ on_segment u v q) /\
  ((3 <= length ids)%nat -> q = p /\ exists a b c, In a vs /\ In b vs /\ In c vs /\ tri2 a b c <> 0 /\ inner_mean [a; b; c] q).
Lemma inner_incl us vs q : (forall v, In v us -> In v vs) -> in_hull us q -> in_hull vs q.
Proof.
  intros Hi (ws & L & F & S & X & Y). revert ws q L F S X Y. induction us as [|a us IH]; intros ws q L F S X Y.
  - destruct ws; [cbn in S; lra|discriminate].
  - destruct ws as [|w ws]; [discriminate|]. unfold wsum in X, Y. cbn [combine map fst snd] in X, Y. rewrite Rsum_cons in *.
    inversion F as [|? ? Hw F']; subst. assert (P : 0 <= Rsum ws) by (clear - F'; induction F'; cbn [Rsum fold_right] in *; [lra|]; unfold Rsum in *; cbn; lra).
    destruct (Req_dec (Rsum ws) 0) as [Z|Z].
    + assert (A : forall x, In x ws -> x = 0).
      { clear - F' Z. induction F' as [|x ws Hx F' IH]; intros y Hy; [destruct Hy|]. rewrite Rsum_cons in Z.
        assert (0 <= Rsum ws) by (clear - F'; induction F'; unfold Rsum in *; cbn; lra). destruct Hy as [<-|Hy]; [lra|apply IH; auto; lra]. }
      assert (B : forall f us, wsum ws f us = 0).
      { clear - A. intros f. induction ws as [|x ws IH]; intros us; [destruct us; reflexivity|]. destruct us as [|u us]; [reflexivity|]. unfold wsum in *. cbn [combine map fst snd]. rewrite Rsum_cons.
        rewrite (A x (or_introl eq_refl)), IH; [ring|]. intros y Hy. apply A. now right. }
      pose proof (B fst us) as B1. pose proof (B snd us) as B2. unfold wsum in B1, B2. rewrite B1 in X. rewrite B2 in Y.
      assert (q = a) by (destruct q, a; cbn in *; apply f_equal2; nra). subst q. apply in_hull_vertex, Hi. now left.
    + set (r := Rsum ws) in *.
      set (q' := (wsum ws fst us / r, wsum ws snd us / r)).
      assert (Hq' : in_hull vs q').
      { apply (IH (fun v Hv => Hi v (or_intror Hv)) (map (fun x => x / r) ws) q').
        - rewrite map_length. cbn in L. lia.
        - apply Forall_forall. intros x Hx. apply in_map_iff in Hx. destruct Hx as (y & <- & Hy). rewrite Forall_forall in F'. specialize (F' y Hy).
          apply Rmult_le_pos; [lra|]. left. apply Rinv_0_lt_compat. lra.
        - assert (G : forall l, Rsum (map (fun x => x / r) l) = Rsum l / r) by (induction l as [|x l IHl]; cbn [map]; [cbn; field; auto|rewrite !Rsum_cons, IHl; field; auto]).
          rewrite G. unfold r. field. auto.
        - assert (G : forall f l us, wsum (map (fun x => x / r) l) f us = wsum l f us / r).
          { intros f. induction l as [|x l IHl]; intros [|u us0]; unfold wsum in *; cbn [map combine fst snd]; try (cbn; field; auto; fail). rewrite !Rsum_cons, IHl. field. auto. }
          rewrite G. reflexivity.
        - assert (G : forall f l us, wsum (map (fun x => x / r) l) f us = wsum l f us / r).
          { intros f. induction l as [|x l IHl]; intros [|u us0]; unfold wsum in *; cbn [map combine fst snd]; try (cbn; field; auto; fail). rewrite !Rsum_cons, IHl. field. auto. }
          rewrite G. reflexivity. }
      assert (E : q = along a q' r).
      { unfold along, q', wsum. cbn [fst snd]. destruct q as [qx qy]. cbn [fst snd] in *. rewrite X, Y. replace w with (1 - r) by (unfold r in *; lra). apply f_equal2; field; auto. }
      rewrite E. apply in_hull_mix; [unfold r in *; lra| |exact Hq']. apply in_hull_vertex, Hi. now left.
Qed.
Lemma map_In_vert vs us : Forall (fun k => (k < length vs)%nat) us -> forall v, In v (map (vert vs) us) -> In v vs.
Proof. intros H v Hv. apply in_map_iff in Hv. destruct Hv as (k & <- & Hk). rewrite Forall_forall in H. apply In_vert. auto. Qed.
Lemma Forall_nth_sx (sx ids : list nat) (P : nat -> Prop) : Forall P sx -> Forall (fun k => (k < length sx)%nat) ids -> Forall P (map (fun k => nth k sx 0%nat) ids).
Proof. intros H1 H2. apply Forall_forall. intros x Hx. apply in_map_iff in Hx. destruct Hx as (k & <- & Hk). rewrite Forall_forall in *. apply H1, nth_In, H2, Hk. Qed.
(** one iteration *)
Lemma gjk_round vs sx p q ids : NoDup vs -> simplex_ok vs sx -> get_closest p (map (vert vs) sx) = Ok (q, ids) ->
  let us := map (fun k => nth k sx 0%nat) ids in
  nearest (map (vert vs) sx) p q /\ inner_mean (map (vert vs) us) q /\ NoDup us /\ Forall (fun k => (k < length vs)%nat) us /\
  (length ids = 1 \/ length ids = 2 \/ length ids = 3 /\ q = p)%nat /\ independent (map (vert vs) us) /\ nearest (map (vert vs) us) p q /\
  in_hull vs q /\ independent (map (vert vs) sx) /\ Forall (fun k => (k < length sx)%nat) ids.
Proof.
  intros Hn Hs H us. pose proof (simplex_cases _ _ _ _ _ Hn Hs H) as Hi. destruct Hs as (S1 & S2 & S3).
  destruct (closest_independent p _ Hi) as (q' & ids' & E & N & M & Len & ND & F). rewrite H in E. inversion E; subst q' ids'; clear E.
  rewrite map_length in F. rewrite used_map in M by auto. fold us in M.
  assert (U1 : NoDup us) by (now apply NoDup_map_nth). assert (U2 : Forall (fun k => (k < length vs)%nat) us) by (now apply Forall_nth_sx).
  assert (Ui : independent (map (vert vs) us)).
  { assert (Lu : length us = length ids) by (unfold us; apply map_length). destruct us as [|i [|j [|k [|l us']]]] eqn:Eu; cbn in Lu; try lia.
    - exact I.
    - cbn. intros E. inversion U2 as [|? ? Hi' H4]; subst. inversion H4 as [|? ? Hj H5]; subst. apply NoDup_vert in E; auto. inversion U1 as [|? ? Hx _]; subst. apply Hx. now left.
    - (* three ids: the whole simplex up to order *)
      clear Len. destruct sx as [|x [|y [|z [|t sx]]]]; cbn in S2; try lia.
      + destruct ids as [|a [|b [|c [|d ids]]]]; cbn in Lu; try lia. inversion F as [|? ? Fa F1]; subst. inversion F1 as [|? ? Fb F2]; subst. cbn in Fa, Fb.
        inversion ND as [|? ? Na _]; subst. exfalso. apply Na. left. lia.
      + destruct ids as [|a [|b [|c [|d ids]]]]; cbn in Lu; try lia. inversion F as [|? ? Fa F1]; subst. inversion F1 as [|? ? Fb F2]; subst. inversion F2 as [|? ? Fc F3]; subst. cbn in Fa, Fb, Fc.
        inversion ND as [|? ? Na ND1]; subst. inversion ND1 as [|? ? Nb _]; subst. cbn in Na, Nb. exfalso. lia.
      + destruct ids as [|a [|b [|c [|d ids]]]]; cbn in Lu; try lia. inversion F as [|? ? Fa F1]; subst. inversion F1 as [|? ? Fb F2]; subst. inversion F2 as [|? ? Fc F3]; subst. cbn in Fa, Fb, Fc.
        inversion ND as [|? ? Na ND1]; subst. inversion ND1 as [|? ? Nb _]; subst. cbn in Na, Nb. cbn in Hi.
        assert (P : forall a b c : pt, tri2 a b c <> 0 -> tri2 b c a <> 0 /\ tri2 c a b <> 0 /\ tri2 b a c <> 0 /\ tri2 c b a <> 0 /\ tri2 a c b <> 0).
        { clear. intros a b c. unfold tri2, det2. cbn [fst snd]. intros. repeat split; lra. }
        destruct (P _ _ _ Hi) as (P1 & P2 & P3 & P4 & P5). unfold us in Eu. cbn in Eu. inversion Eu; subst. cbn [map independent].
        destruct a as [|[|[|a]]]; destruct b as [|[|[|b]]]; destruct c as [|[|[|c]]]; try lia; cbn; assumption. }
  assert (Uh : in_hull (map (vert vs) us) q) by (now apply inner_in_hull).
  assert (Inc : forall v, In v (map (vert vs) us) -> In v (map (vert vs) sx)).
  { intros v Hv. apply in_map_iff in Hv. destruct Hv as (k & <- & Hk). apply in_map. unfold us in Hk. apply in_map_iff in Hk. destruct Hk as (l & <- & Hl). rewrite Forall_forall in F. apply nth_In. auto. }
  split; [exact N|]. split; [exact M|]. split; [exact U1|]. split; [exact U2|]. split; [exact Len|]. split; [exact Ui|]. split.
  - split; [exact Uh|]. intros x Hx. apply (proj2 N). eapply inner_incl; eauto.
  - split; [|split; [exact Hi|exact F]]. eapply inner_incl; [|exact Uh]. now apply map_In_vert.
Qed.
Lemma NoDup_snoc {A} (l : list A) x : NoDup l -> ~ In x l -> NoDup (l ++ [x]).
Proof.
  intros H Hx. induction H as [|a l Ha H IH]; cbn; [repeat constructor; intros []|]. constructor.
  - intros Hin. apply in_app_or in Hin. destruct Hin as [Hin|[->|[]]]; [auto|]. apply Hx. now left.
  - apply IH. intros Hin. apply Hx. now right.
Qed.
Lemma snoc_ok vs sx ids k : NoDup (map (fun k => nth k sx 0%nat) ids) -> Forall (fun k => (k < length vs)%nat) (map (fun k => nth k sx 0%nat) ids) ->
  (length ids = 1 \/ length ids = 2)%nat -> Forall (fun k => (k < length sx)%nat) ids -> (k < length vs)%nat -> existsb (Nat.eqb k) sx = false ->
  simplex_ok vs (map (fun k => nth k sx 0%nat) ids ++ [k]).
Proof.
  intros R3 R4 L R10 K Ex. split; [|split].
  - apply NoDup_snoc; [exact R3|]. intros Hx. assert (In k sx) as Hk; [|apply existsb_In in Hk; congruence].
    apply in_map_iff in Hx. destruct Hx as (l & <- & Hl). rewrite Forall_forall in R10. apply nth_In, R10, Hl.
  - rewrite app_length, map_length. cbn. lia.
  - apply Forall_app. split; [exact R4|repeat constructor; exact K].
Qed.
Lemma gjk_ok fuel : forall p vs sx q ids, NoDup vs -> simplex_ok vs sx -> gjk fuel p vs sx = Ok (q, ids) -> gjk_post vs p q ids.
Proof.
  induction fuel as [|fuel IH]; intros p vs sx q ids Hn Hs H; [discriminate|]. rewrite gjk_S in H.
  bind_inv H as cl E. destruct cl as [q0 ids0]. cbn [fst snd] in H. destruct (gjk_round vs sx p q0 ids0 Hn Hs E) as (R1 & R2 & R3 & R4 & R5 & R6 & R7 & R8 & R9 & R10).
  set (us := map (fun k => nth k sx 0%nat) ids0) in *.
  assert (Lu : length us = length ids0) by (unfold us; apply map_length).
  assert (Seg : (length ids0 < 3)%nat -> exists u v, In u vs /\ In v vs /\ on_segment u v q0).
  { intros Ll. destruct us as [|i [|j [|k us']]] eqn:Eu; cbn in Lu; try lia.
    - inversion R4 as [|? ? Hi _]; subst. exists (vert vs i), (vert vs i). split; [now apply In_vert|]. split; [now apply In_vert|].
      exists 0. split; [lra|]. rewrite along_0. destruct R2 as (ws & L & _ & S & X & Y). destruct ws as [|w [|]]; try discriminate. unfold wsum in *. cbn in *. destruct q0, (vert vs i); cbn in *. apply f_equal2; nra.
    - inversion R4 as [|? ? Hi R4']; subst. inversion R4' as [|? ? Hj _]; subst. exists (vert vs i), (vert vs j). split; [now apply In_vert|]. split; [now apply In_vert|].
      apply in_hull_two. now apply inner_in_hull. }
  assert (Hin : q0 = p -> nearest vs p q0) by (intros ->; apply nearest_cond; [exact R8|intros; lra]).
  destruct (Nat.eqb_spec (length ids0) 3) as [L3|L3].
  { inversion H; subst q0 ids0. assert (q = p) by (destruct R5 as [R5|R5]; [lia|destruct R5 as [R5|R5]; [lia|tauto]]). subst q.
    split; [auto|]. split; [intros; lia|]. intros _. split; [reflexivity|].
    destruct us as [|i [|j [|k [|l us']]]] eqn:Eu; cbn in Lu; try lia. inversion R4 as [|? ? Hi R41]; subst. inversion R41 as [|? ? Hj R42]; subst. inversion R42 as [|? ? Hk _]; subst.
    exists (vert vs i), (vert vs j), (vert vs k). split; [now apply In_vert|]. split; [now apply In_vert|]. split; [now apply In_vert|]. split; [exact R6|exact R2]. }
  assert (L12 : (length ids0 = 1 \/ length ids0 = 2)%nat) by lia.
  rewrite (gjk_search vs sx ids0 q0 p L12) in H. fold us in H. set (s := search_dir p q0 (map (vert vs) us)) in *.
  assert (Dir : p = q0 \/ exists l, 0 < l /\ s = v2scale l (v2sub p q0)) by (apply search_dir_ok; auto; rewrite map_length; lia).
  assert (Done : nearest vs p q0 -> gjk_post vs p q0 ids0) by (intros D; split; [exact D|]; split; [exact Seg|intros; lia]).
  destruct (Reqb (fst s) 0 && Reqb (snd s) 0)%bool eqn:Z.
  { inversion H; subst q0 ids0. apply Done. apply andb_true_iff in Z. rewrite !Reqb_true in Z. destruct Z as [Z1 Z2].
    destruct Dir as [D|(l & Hl & D)]; [auto|]. rewrite D in Z1, Z2. unfold v2scale, v2sub in Z1, Z2. rnum. cbn [fst snd] in Z1, Z2.
    apply Hin. destruct p as [px py], q as [qx qy]; cbn in *. apply f_equal2; nra. }
  bind_inv H as sup Es. destruct sup as [sp k]. cbn [snd] in H. destruct (get_support_ok _ _ _ _ Es) as (K1 & K2 & _ & K3 & _).
  destruct (existsb (Nat.eqb k) sx) eqn:Ex.
  - inversion H; subst q0 ids0. apply Done. apply existsb_In in Ex. destruct Dir as [D|(l & Hl & D)]; [auto|].
    apply nearest_cond; [exact R8|]. intros v Hv.
    pose proof (nearest_cond_inv _ _ _ R1 (vert vs k) (in_map _ _ _ Ex)) as Nk. pose proof (K3 v Hv) as Kv. rewrite K2, D in Kv.
    unfold v2dot, v2scale, v2sub in Kv. rnum. cbn [fst snd] in Kv. nra.
  - apply IH in H; auto. now apply snoc_ok.
Qed.
