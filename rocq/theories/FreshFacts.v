From Coq Require Import List Arith ZArith Lia Bool.
From Verif Require Import Num Tensor Utils Bodies Forces Constraints Contacts World
     ResFacts Spec FreshSpec WorldFacts HandlerFacts.
Import ListNotations.

Section FreshFacts.
Context {T : Type} {N : Num T}.
Implicit Types (w : world T) (o : oracle T) (hd : handler T) (e : engine T) (bs bodies : list (body T)).

Lemma still_forget (b b' : body T) : forget b = forget b' -> still b = still b'.
Proof. unfold still. now intros ->. Qed.
Lemma map_still_forget bs bs' : map forget bs = map forget bs' -> map still bs = map still bs'.
Proof. intros H. change still with (fun b => with_v (forget b) (v3zero (T:=T))). rewrite <- (map_map forget (fun b => with_v b v3zero)), <- (map_map forget (fun b => with_v b v3zero) bs'). now rewrite H. Qed.
Lemma still_with_v (b : body T) v : still (with_v b v) = still b.
Proof. unfold still. rewrite forget_with_v. reflexivity. Qed.
Lemma geom_still (b : body T) : b_geom (still b) = b_geom b.
Proof. unfold still. cbn. apply forget_geom. Qed.
Lemma map_geom_still bs bs' : map still bs = map still bs' -> map b_geom bs = map b_geom bs'.
Proof.
  intros H. rewrite <- (map_ext _ _ geom_still bs), <- (map_ext _ _ geom_still bs').
  rewrite <- (map_map still b_geom bs), <- (map_map still b_geom bs'). now rewrite H.
Qed.
Lemma reported_still hd eps bs bs' i j new : map still bs = map still bs' -> reported hd eps bs i j new -> reported hd eps bs' i j new.
Proof. intros H (clk & bs0 & bs1 & clk1 & H1 & H2). exists clk, bs0, bs1, clk1. split; [congruence|exact H2]. Qed.
Lemma current_still o hd w w' : map still (w_bodies w) = map still (w_bodies w') -> w_contacts w' = w_contacts w -> w_eps w' = w_eps w ->
  contacts_current o hd w -> contacts_current o hd w'.
Proof.
  intros H Hc He (k & calls & H1 & H2 & H3). exists k, calls. rewrite Hc, He, <- (map_geom_still _ _ H).
  split; [exact H1|]. split; [exact H2|]. intros i j new Hin. eapply reported_still; eauto.
Qed.
Lemma current_set_v o hd w v w' : contacts_current o hd w -> set_v w v = Ok w' -> contacts_current o hd w'.
Proof.
  intros H Hs. apply set_v_inv in Hs. destruct Hs as [_ ->]. revert H. apply current_still; try reflexivity. cbn.
  rewrite (mapi_map _ still still); [reflexivity|]. intros. apply still_with_v.
Qed.
Lemma fc_calls hd eps bs0 pairs : handler_frame hd -> forall cs bs clk cs' bs' clk', map forget bs = map forget bs0 ->
  fold_left (fc_step hd eps) pairs (Ok (cs, bs, clk)) = Ok (cs', bs', clk') ->
  map forget bs' = map forget bs0 /\
  exists calls, map fst calls = pairs /\ cs' = cs ++ flat_map snd calls /\
    forall i j new, In ((i, j), new) calls -> reported hd eps bs0 i j new.
Proof.
  intros Hf. induction pairs as [|[i j] pairs IH]; intros cs bs clk cs' bs' clk' Hb H.
  - cbn in H. inversion H; subst. split; [exact Hb|]. exists []. cbn. rewrite app_nil_r. split; [reflexivity|]. split; [reflexivity|]. intros ? ? ? [].
  - cbn [fold_left] in H. unfold fc_step at 2 in H. cbn [bind] in H.
    destruct (hd eps clk bs i j) as [[[new b'] k']|er] eqn:Eh; cbn [bind] in H; [|rewrite fc_fold_err in H; discriminate].
    destruct (IH _ _ _ _ _ _ (eq_trans (Hf _ _ _ _ _ _ _ _ Eh) Hb) H) as (H1 & calls & H2 & H3 & H4). split; [exact H1|].
    exists (((i, j), new) :: calls). cbn [map flat_map fst snd]. split; [now rewrite H2|]. split; [now rewrite app_assoc|].
    intros i' j' new' [E|Hin]; [|eauto]. inversion E; subst. exists clk, bs, b', k'. split; [now apply map_still_forget|exact Eh].
Qed.
Lemma find_contacts_current o hd w w' : handler_frame hd -> find_contacts o hd w = Ok w' -> contacts_current o hd w'.
Proof.
  intros Hf H. pose proof (find_contacts_frame _ _ _ _ Hf H) as Hb. apply find_contacts_fold in H. destruct H as (cs & bs & clk & H & ->). cbn in Hb.
  destruct (fc_calls hd (w_eps w) (w_bodies w) _ Hf _ _ _ _ _ _ eq_refl H) as (_ & calls & H2 & H3 & H4).
  exists (w_clk w), calls. cbn. assert (G : map still (w_bodies w) = map still bs) by (symmetry; now apply map_still_forget).
  rewrite <- (map_geom_still _ _ G). split; [exact H2|]. split; [exact H3|]. intros i j new Hin. eapply reported_still; eauto.
Qed.
Lemma tries_current o hd sp sr w dt k w' dt' : handler_frame hd -> tries o hd sp sr w dt k w' dt' -> contacts_current o hd w'.
Proof. intros Hf H. induction H; eauto using find_contacts_current. Qed.
Lemma step_dt_current fuel o hd e w dt w' : handler_frame hd -> step_dt fuel o hd e w dt = Ok w' -> contacts_current o hd w'.
Proof.
  intros Hf H. unfold step_dt in H. bind_inv H as sol Es. destruct sol as [nv cache]. bind_inv H as w1 E1. bind_inv H as r Er.
  destruct r as [w2 dt']. bind_inv H as w3 E3. apply step_loop_tries in Er. destruct Er as (k & _ & Htr).
  assert (C : contacts_current o hd w3).
  { destruct (w_post_stab w2); [|inversion E3; subst; eapply tries_current; eauto].
    bind_inv E3 as dp Ed. bind_inv E3 as wa Ea. bind_inv E3 as wb Eb. bind_inv E3 as wc Ec. eapply find_contacts_current; eauto. }
  inversion H; subst. revert C. now apply current_still.
Qed.
Lemma exec_current fuel o hd e ops w w' : handler_frame hd -> contacts_current o hd w -> exec fuel o hd e ops w = Ok w' -> contacts_current o hd w'.
Proof.
  intros Hf Hw H. eapply (exec_invariant fuel o hd e (contacts_current o hd)); eauto using current_set_v.
  intros a dt a' _ Hs. eapply step_dt_current; eauto.
Qed.
Lemma init_current o hd heap bodies cons dt eps tol fd ps st w :
  handler_frame hd -> world_init o hd heap bodies cons dt eps tol fd ps st = Ok w -> contacts_current o hd w.
Proof.
  intros Hf H. unfold world_init in H. destruct bodies; [discriminate|]. bind_inv H as js Ej. bind_inv H as w1 E1. bind_inv H as w2 E2.
  destruct (_ && _)%bool; [discriminate|]. inversion H; subst. eapply find_contacts_current; eauto.
Qed.
End FreshFacts.
