(** The rebuilt world is the interrupted one, with a clock that starts again *)
From Coq Require Import List Arith ZArith Bool Reals Lra Lia.
From Verif Require Import Num Tensor Utils Bodies Forces Constraints Contacts World Lapack Pdipm Lcp Engines Spec GeoSpec BodySpec JointSpec FreshSpec EngineSpec ContactSpec ResumeSpec
     RBase ResFacts LinAlg LapackSpec WorldFacts HandlerFacts LayoutFacts HistFacts SysFacts RewindFacts JointFacts JeFacts FreshFacts
     CacheFacts BodyReach GeomFacts EngineFacts SceneInit CollideFacts DetectSpec DetectFacts EngineProps EngineMore ResumeFacts.
Import ListNotations.
Open Scope R_scope.

Notation jof := (fun '(j, _, _) => j).
Lemma attrs_ids (l l' : list (body R)) : Forall2 same_attrs l l' -> map b_id l' = map b_id l.
Proof. induction 1 as [|b b' l l' (E & _) F IH]; [reflexivity|]. cbn. now rewrite E, IH. Qed.
Lemma find_index (bs bs' : list (body R)) i b id : Forall2 same_attrs bs bs' -> NoDup (map b_id bs) -> nth_error bs i = Some b -> b_id b = id -> index_of bs' id = Ok i.
Proof.
  intros F N E <-. destruct (nth_error_Forall2_l _ _ _ _ _ F E) as (b' & E' & A). assert (I : b_id b' = b_id b) by apply A.
  destruct (index_of_total bs' b' (nth_error_In _ _ E')) as (k & c & K & Kc & Ki). rewrite <- I, K. f_equal. apply (same_place bs' k i c b'); auto. now rewrite (attrs_ids _ _ F).
Qed.
Lemma rebuilt_joints bs js J0 w : sound bs js J0 w ->
  mapM (fun j => do i1 <- index_of (w_bodies w) (j_b1 j);
                 match j_b2 j with None => Ok (j, i1, None) | Some id => do i2 <- index_of (w_bodies w) id; Ok (j, i1, Some i2) end) (map jof (w_joints w)) = Ok (w_joints w).
Proof.
  intros [(Hn & _ & He & [_ Hj] & _) _ _ _ Ha]. revert js He. induction Hj as [|[[j0 i1] i2] [[j k1] k2] J0 Js Hj _ IH]; intros js He; [reflexivity|].
  inversion He as [|jj ? js' ? E He']; subst. cbn [map mapM]. destruct E as (-> & (b1 & B1 & I1) & E2). destruct Hj as (-> & -> & a1 & c1 & c2 & _ & _ & K). destruct K as (_ & K1 & K2 & _).
  rewrite K1, K2, (find_index bs _ i1 b1) by auto. cbn [bind]. destruct (j_b2 jj) as [id|], i2 as [i|]; try contradiction.
  - destruct E2 as (b2 & B2 & I2). rewrite (find_index bs _ i b2) by auto. cbn [bind]. rewrite (IH js' He'). reflexivity.
  - cbn [bind]. rewrite (IH js' He'). reflexivity.
Qed.
Lemma joints_kinds bs js J0 w : sound bs js J0 w -> map j_kind (map jof (w_joints w)) = map j_kind js.
Proof.
  intros [(_ & _ & He & [_ Hj] & _) _ _ _ _]. revert js He. induction Hj as [|[[j0 i1] i2] [[j k1] k2] J0 Js Hj _ IH]; intros js He; inversion He as [|jj ? js' ? E He']; subst; [reflexivity|].
  cbn [map]. destruct E as (-> & _). destruct Hj as (_ & _ & a1 & c1 & c2 & _ & _ & K & _). rewrite K. f_equal. now apply IH.
Qed.
Lemma kinds_counts (l l' : list (joint R)) : map j_kind l = map j_kind l' -> forallb j_static l = forallb j_static l' /\
  forall n, fold_left (fun n j => (n + j_num j)%nat) l n = fold_left (fun n j => (n + j_num j)%nat) l' n.
Proof.
  revert l'. induction l as [|j l IH]; intros [|j' l'] H; try discriminate; [split; reflexivity|]. cbn [map] in H. assert (E : j_kind j = j_kind j' /\ map j_kind l = map j_kind l') by (split; congruence).
  destruct E as [E1 E2]. destruct (IH _ E2) as [I1 I2]. assert (S1 : j_static j = j_static j') by (unfold j_static; now rewrite E1). assert (S2 : j_num j = j_num j') by (unfold j_num; now rewrite E1).
  cbn [forallb fold_left]. split; [now rewrite I1, S1|]. intros n. now rewrite S2, I2.
Qed.
Lemma set_v_same (l : list (body R)) : mapi (fun i b => with_v b (v3_at (cat3 (map b_v l)) i)) l = l.
Proof.
  assert (G : forall l pre, mapi_from (length pre) (fun i b => with_v b (v3_at (cat3 (pre ++ map b_v l)) i)) l = l).
  { clear. induction l as [|b l IH]; intros pre; [reflexivity|]. cbn [mapi_from map]. f_equal.
    - assert (V : v3_at (cat3 (pre ++ b_v b :: map b_v l)) (length pre) = b_v b).
      { unfold cat3. rewrite flat_map_app. cbn [flat_map]. unfold v3_at, vget. assert (L : length (flat_map v3list pre) = (3 * length pre)%nat) by (clear; induction pre as [|a pre IH]; [reflexivity|]; cbn [flat_map]; rewrite app_length, IH; cbn; lia).
        rewrite !(app_nth2 (flat_map v3list pre)) by lia. rewrite L. replace (3 * length pre - 3 * length pre)%nat with 0%nat by lia. replace (3 * length pre + 1 - 3 * length pre)%nat with 1%nat by lia.
        replace (3 * length pre + 2 - 3 * length pre)%nat with 2%nat by lia. destruct (b_v b) as [x [y z]]. reflexivity. }
      rewrite V. destruct b. reflexivity.
    - specialize (IH (pre ++ [b_v b])). rewrite app_length in IH. cbn [length] in IH. replace (length pre + 1)%nat with (S (length pre)) in IH by lia. rewrite <- app_assoc in IH. exact IH. }
  apply (G l []).
Qed.
Lemma cat3_len (l : list (body R)) : length (cat3 (map b_v l)) = (3 * length l)%nat.
Proof. unfold cat3. induction l as [|a l IH]; [reflexivity|]. cbn [map flat_map]. rewrite app_length, IH. cbn. lia. Qed.

Definition rebuilt_as (t0 : R) (w w' : world R) : Prop := exists k, w' = shift t0 k (with_cache w None).
Lemma rebuild_inv la mi o hd bs js w w' : session la mi o hd bs js w -> rebuild o hd (delayed (w_t w) (w_heap w)) w = Ok w' ->
  w_bodies w' = w_bodies w -> w_contacts w' = w_contacts w -> rebuilt_as (w_t w) w w'.
Proof.
  intros Hs H Hb Hc. destruct (session_facts _ _ _ _ _ _ _ Hs) as (_ & _ & _ & _ & J0 & HS & _). pose proof (rebuilt_joints _ _ _ _ HS) as EJ. pose proof (kinds_counts _ _ (joints_kinds _ _ _ _ HS)) as [K1 K2].
  assert (ST : w_static_inverse w = forallb j_static js /\ w_num_constraints w = fold_left (fun n j => (n + j_num j)%nat) js 0%nat).
  { destruct Hs as [fuel gf heap dt eps tol fd ps st w0 ops _ _ _ _ _ H0 Hx]. pose proof (exec_cfg _ _ _ _ _ _ _ Hx) as HC. apply world_init_inv in H0. cfg_fields HC. intuition congruence. }
  destruct ST as [S1 S2]. unfold rebuild, world_init in H. rewrite EJ in H. destruct (w_bodies w) as [|b0 l] eqn:EB; [discriminate|]. cbn [bind] in H. rewrite <- EB in *. bind_inv H as w1 E1. bind_inv H as w2 E2.
  destruct (w_strict w && _)%bool; [discriminate|]. injection H as <-. apply set_v_inv in E1. destruct E1 as [_ ->]. apply find_contacts_fold in E2. destruct E2 as (cs & b2 & clk & _ & ->). cbn in Hb, Hc. subst b2 cs.
  exists clk. unfold shift, with_cache, with_state. cbn. rewrite K1, (K2 0%nat), <- S1, <- S2, <- (so_v _ _ _ _ HS), (so_M0 _ _ _ _ HS), (world_M_ext _ _ (so_attrs _ _ _ _ HS)). f_equal. rnum. lra.
Qed.
Theorem resume la mi o hd bs js w w' : session la mi o hd bs js w -> repeatable o -> rebuild o hd (delayed (w_t w) (w_heap w)) w = Ok w' ->
  w_bodies w' = w_bodies w -> w_contacts w' = w_contacts w ->
  forall fuel ops, same_outcome (w_t w) (exec fuel o hd (pdipm_engine la mi) ops w) (exec fuel o hd (pdipm_engine la mi) ops w').
Proof.
  intros Hs Ho HR Hb Hc fuel ops. destruct (rebuild_inv _ _ _ _ _ _ _ _ Hs HR Hb Hc) as [k ->]. destruct (session_facts _ _ _ _ _ _ _ Hs) as (Hf & _ & _ & _ & J0 & _ & V).
  destruct (init_valid la _ _ _ _ _ _ _ _ _ _ _ _ Hf HR) as [V' _].
  assert (Hh : exists gf, hd = diff_handler gf o \/ hd = ode_handler o) by (destruct Hs; eauto). destruct Hh as [gf Hh].
  pose proof (shift_exec (w_t w) o hd la mi Ho (repeat_hd gf o hd Ho Hh) fuel ops k (with_cache w None)) as A.
  destruct (exec_uncached la mi fuel o hd ops Hf _ V) as [U _]. destruct (exec_uncached la mi fuel o hd ops Hf _ V') as [U' _]. unfold eng in A. rewrite U in A.
  change (with_cache (shift (w_t w) k (with_cache w None)) None) with (shift (w_t w) k (with_cache w None)) in U'. rewrite U' in A. unfold re in A.
  destruct (exec fuel o hd (pdipm_engine la mi) ops w) as [x|e], (exec fuel o hd (pdipm_engine la mi) ops (shift (w_t w) k (with_cache w None))) as [x'|e']; cbn [bind sim] in A; try contradiction; [|exact A].
  destruct A as [q A]. cbn [same_outcome]. apply (f_equal (fun z => (w_bodies z, w_joints z, w_v z, w_contacts z, w_t z))) in A. cbn in A. inversion A. rnum. repeat (split; [congruence|]). lra.
Qed.

(** ** callbacks without memory *)
Definition memoryless (hd : handler R) (bs : list (body R)) : Prop := forall eps k bs0 i j new bs1 k1, map still bs0 = map still bs -> hd eps k bs0 i j = Ok (new, bs1, k1) ->
  forall k', exists k2, hd eps k' bs i j = Ok (new, bs, k2).
Lemma ode_memoryless o bs : repeatable o -> memoryless (ode_handler o) bs.
Proof.
  intros Ho eps k bs0 i j new bs1 k1 HS H k'. unfold ode_handler in *. bind_inv H as a1 E1. bind_inv H as a2 E2. apply get_body_Ok in E1, E2.
  destruct (still_nth _ _ _ _ (eq_sym HS) E1) as (b1 & B1 & S1). destruct (still_nth _ _ _ _ (eq_sym HS) E2) as (b2 & B2 & S2). destruct (still_shape _ _ S1) as (I1 & _ & _ & _ & _ & G1). destruct (still_shape _ _ S2) as (_ & _ & _ & _ & _ & G2).
  apply get_body_Ok in B1, B2. rewrite B1, B2. cbn [bind]. rewrite I1, G1, G2. rewrite (proj1 (proj2 (Ho k' k))). destruct (existsb _ _); [injection H as <- <- <-; eauto|].
  destruct (fold_left _ _ _) as [cs d]. injection H as <- <- <-. eauto.
Qed.
Lemma disc_memoryless gf o bs : Forall (fun b => is_circle b = true) bs -> memoryless (diff_handler gf o) bs.
Proof.
  intros HC eps k bs0 i j new bs1 k1 HS H k'. unfold diff_handler in *. bind_inv H as a1 E1. bind_inv H as a2 E2. apply get_body_Ok in E1, E2.
  destruct (still_nth _ _ _ _ (eq_sym HS) E1) as (b1 & B1 & S1). destruct (still_nth _ _ _ _ (eq_sym HS) E2) as (b2 & B2 & S2).
  destruct (still_shape _ _ S1) as (I1 & _ & C1 & _ & _ & G1). destruct (still_shape _ _ S2) as (_ & _ & C2 & _ & _ & G2). pose proof (still_alike _ _ S1) as A1. pose proof (still_alike _ _ S2) as A2.
  rewrite Forall_forall in HC. pose proof (HC _ (nth_error_In _ _ B1)) as D1. pose proof (HC _ (nth_error_In _ _ B2)) as D2.
  apply get_body_Ok in B1, B2. rewrite B1, B2. cbn [bind]. rewrite I1, G2, D1, D2. cbn [andb]. rewrite <- C1, <- C2, D1, D2 in H. cbn [andb] in H. destruct (existsb _ _); [injection H as <- <- <-; eauto|].
  assert (E : circle_circle a1 a2 eps = circle_circle b1 b2 eps). { unfold circle_circle. destruct A1 as (-> & _ & ->), A2 as (-> & _ & ->). reflexivity. } rewrite E in H. injection H as <- <- <-. eauto.
Qed.
Lemma look_memoryless hd eps bs calls : memoryless hd bs -> (forall i j new, In ((i, j), new) calls -> reported hd eps bs i j new) -> forall cs k,
  exists k', fold_left (fc_step hd eps) (map fst calls) (Ok (cs, bs, k)) = Ok (cs ++ flat_map snd calls, bs, k').
Proof.
  intros HM. induction calls as [|[[i j] new] calls IH]; intros HR cs k; cbn [map flat_map fst snd fold_left]; [rewrite app_nil_r; eauto|].
  destruct (HR i j new ltac:(now left)) as (k0 & bs0 & bs1 & k1 & S0 & E0). destruct (HM _ _ _ _ _ _ _ _ S0 E0 k) as [k2 E2]. unfold fc_step at 2. cbn [bind]. rewrite E2. cbn [bind].
  destruct (IH (fun i j n H => HR i j n (or_intror H)) (cs ++ new) k2) as [k3 E3]. exists k3. rewrite E3, app_assoc. reflexivity.
Qed.
Theorem resume_discs la mi o hd bs js w : session la mi o hd bs js w -> repeatable o -> hd = ode_handler o \/ Forall (fun b => is_circle b = true) bs ->
  (w_strict w = true -> Forall (fun c => c_pen c <= w_tol w) (w_contacts w)) ->
  exists w', rebuild o hd (delayed (w_t w) (w_heap w)) w = Ok w' /\
    forall fuel ops, same_outcome (w_t w) (exec fuel o hd (pdipm_engine la mi) ops w) (exec fuel o hd (pdipm_engine la mi) ops w').
Proof.
  intros Hs Ho Hk Hst. destruct (session_facts _ _ _ _ _ _ _ Hs) as (Hf & Hr & _ & _ & J0 & HS & V). pose proof (session_current _ _ _ _ _ _ _ Hs) as (k & calls & P1 & P2 & P3).
  assert (HM : memoryless hd (w_bodies w)).
  { destruct Hk as [-> | Hk]; [now apply ode_memoryless|]. destruct Hs as [fuel gf heap dt eps tol fd ps st w0 ops [-> | ->] _ _ _ _ H0 Hx]; [|now apply ode_memoryless].
    apply disc_memoryless. pose proof (so_attrs _ _ _ _ HS) as F. clear - F Hk H0 Hx.
    assert (G : Forall2 (fun b b' => is_circle b' = is_circle b) bs (w_bodies w)).
    { assert (ST : body_steps (fun b b' : body R => is_circle b' = is_circle b)). { split.
        - intros a b c A B. congruence.
        - reflexivity.
        - intros b p. unfold set_p, is_circle. destruct b as [? sh]; destruct sh; cbn; try reflexivity; match goal with |- context [if ?c then _ else _] => destruct c end; reflexivity.
        - intros b b' E. pose proof (f_equal is_circle E) as E'. unfold forget, is_circle in *. destruct b as [? sh], b' as [? sh']; destruct sh, sh'; cbn in *; congruence. }
      exact (world_steps _ ST _ _ _ _ _ _ _ _ _ _ _ _ _ _ _ _ (diff_handler_frame _ _) H0 Hx). }
    clear - G Hk. induction G as [|b b' l l' E G IH]; constructor; inversion Hk; subst; auto. congruence. }
  assert (HB : w_bodies w <> []).
  { destruct (so_attrs _ _ _ _ HS); [|discriminate]. destruct Hs as [fuel gf heap dt eps tol fd ps st w0 ops _ _ _ _ _ H0 Hx]. discriminate. }
  assert (HR : exists w', w_bodies w' = w_bodies w /\ w_contacts w' = w_contacts w /\ w_tol w' = w_tol w /\
                  rebuild o hd (delayed (w_t w) (w_heap w)) w = if (w_strict w && negb (no_penetration w'))%bool then Err EAssert else Ok w').
  { pose proof (rebuilt_joints _ _ _ _ HS) as EJ. unfold rebuild, world_init. rewrite EJ. destruct (w_bodies w) as [|b0 l] eqn:EB; [congruence|]. cbn [bind]. rewrite <- EB in *.
    unfold set_v at 1. cbn [w_bodies]. rewrite cat3_len, Nat.eqb_refl. cbn [bind].
    unfold find_contacts at 1. cbv zeta. unfold with_state. cbn [w_bodies w_clk w_eps]. rewrite set_v_same. rewrite (proj1 (Ho 0%nat k)), <- P1.
    destruct (look_memoryless hd (w_eps w) (w_bodies w) calls HM P3 [] 1%nat) as [k' E]. cbn [app] in E.
    change (fun acc '(i1, i2) => _) with (fc_step hd (w_eps w)). rewrite E. cbn [bind].
    match goal with |- exists w', _ /\ _ /\ _ /\ (if (_ && negb (no_penetration ?W))%bool then _ else _) = _ => exists W end. rewrite P2. repeat split. }
  destruct HR as (w' & B & C & D & HR). exists w'. assert (HR' : rebuild o hd (delayed (w_t w) (w_heap w)) w = Ok w').
  { rewrite HR. destruct (w_strict w); [|reflexivity]. cbn [andb]. assert (NP : no_penetration w' = true); [|now rewrite NP].
    unfold no_penetration. rewrite C, D. specialize (Hst eq_refl). apply forallb_forall. intros c Hc. rewrite Forall_forall in Hst. specialize (Hst _ Hc). rnum. destruct (Rleb_spec (c_pen c) (w_tol w)); [reflexivity|lra]. }
  split; [exact HR'|]. exact (resume la mi o hd bs js w w' Hs Ho HR' B C).
Qed.
Lemma session_strict la mi o hd bs js w : session la mi o hd bs js w -> w_strict w = true -> w_post_stab w = false -> Forall (fun c => c_pen c <= w_tol w) (w_contacts w).
Proof.
  intros [fuel gf heap dt eps tol fd ps st w0 ops _ _ _ _ _ H0 Hx] Hs Hp. pose proof (exec_cfg _ _ _ _ _ _ _ Hx) as HC. pose proof (world_init_inv _ _ _ _ _ _ _ _ _ _ _ _ H0) as I. cfg_fields HC.
  assert (E : ps = false /\ st = true /\ tol = w_tol w) by intuition congruence. destruct E as (-> & -> & ->). pose proof (strict_no_penetration _ _ _ _ _ _ _ _ _ _ _ _ _ _ H0 Hx) as F.
  rewrite Forall_forall in *. intros c Hc. specialize (F c Hc). cbn beta in F. revert F. rnum. destruct (Rleb_spec (c_pen c) (w_tol w)); [auto|discriminate].
Qed.
Theorem resume_strict la mi o hd bs js w : session la mi o hd bs js w -> repeatable o -> hd = ode_handler o \/ Forall (fun b => is_circle b = true) bs ->
  (w_strict w = true -> w_post_stab w = false \/ Forall (fun c => c_pen c <= w_tol w) (w_contacts w)) ->
  exists w', rebuild o hd (delayed (w_t w) (w_heap w)) w = Ok w' /\
    forall fuel ops, same_outcome (w_t w) (exec fuel o hd (pdipm_engine la mi) ops w) (exec fuel o hd (pdipm_engine la mi) ops w').
Proof. intros Hs Ho Hk Hst. apply (resume_discs la mi o hd bs js w Hs Ho Hk). intros X. destruct (Hst X) as [Y|Y]; [eapply session_strict; eauto|exact Y]. Qed.
