(** The cached inverse is the inverse of the current system matrix (C24), for every arithmetic *)
From Coq Require Import List Arith ZArith Lia Bool.
From Verif Require Import Num Tensor Utils Bodies Forces Constraints Contacts World Lapack Pdipm Lcp Engines Spec EngineSpec ResFacts WorldFacts HandlerFacts LayoutFacts.
Import ListNotations.
Open Scope nat_scope.

Section CacheFacts.
Context {T : Type} {N : Num T}.
Implicit Types (w : world T) (o : oracle T) (hd : handler T) (e : engine T).
Variables (la : lapack T) (mi : nat).

(** what Je of a world with static constraints depends on *)
Definition kinds w := (length (w_bodies w), map (fun '(j, i1, i2) => (j_kind j, i1 : nat, i2 : option nat)) (w_joints w)).
Definition all_static w : Prop := Forall (fun '(j, _, _) => j_static j = true) (w_joints w).

Lemma static_J (j j' : joint T) : j_kind j = j_kind j' -> j_static j = true -> j_J j = j_J j'.
Proof. unfold j_static, j_J. intros <-. destruct (j_kind j); try discriminate; reflexivity. Qed.
Lemma all_static_kinds w w' : kinds w = kinds w' -> all_static w -> all_static w'.
Proof.
  unfold kinds, all_static. intros H. injection H as _ H. revert H. generalize (w_joints w'). induction (w_joints w) as [|[[j i1] i2] l IH]; intros [|[[j' k1] k2] l'] H HA; try discriminate; [constructor|].
  cbn in H. injection H as H1 H2 H3 H4. inversion HA; subst. constructor; [|apply IH; auto]. unfold j_static in *. now rewrite <- H1.
Qed.
Lemma Je_kinds w w' : kinds w = kinds w' -> w_num_constraints w = w_num_constraints w' -> all_static w -> Je w = Je w'.
Proof.
  unfold kinds, all_static, Je. intros H <-. injection H as <- H. generalize (0, mzeros (w_num_constraints w) (3 * length (w_bodies w)) : mat T).
  revert H. generalize (w_joints w'). induction (w_joints w) as [|[[j i1] i2] l IH]; intros [|[[j' k1] k2] l'] H [r m] HA; try discriminate; [reflexivity|].
  cbn [map] in H. injection H as H1 H2 H3 H4. inversion HA; subst. cbn [fold_left]. rewrite (static_J j j') by auto. destruct (j_J j') as [J1 oJ2]. apply IH; auto.
Qed.

(** every piece of a step keeps [kinds] *)
Lemma kinds_set_v w v w' : set_v w v = Ok w' -> kinds w' = kinds w.
Proof. intros H. apply set_v_inv in H. destruct H as [_ ->]. unfold kinds. cbn. now rewrite mapi_length'. Qed.
Lemma j_update_kind (j : joint T) b1 b2 : j_kind (j_update_pos j b1 b2) = j_kind j.
Proof. unfold j_update_pos. destruct (j_kind j) eqn:E; cbn; auto. Qed.
Lemma j_move_kind (j : joint T) b1 b2 dt : j_kind (j_move j b1 b2 dt) = j_kind j.
Proof. unfold j_move. destruct (j_kind j) eqn:E; rewrite j_update_kind; auto. Qed.
Lemma kinds_move w dt w' : move_all w dt = Ok w' -> kinds w' = kinds w.
Proof.
  unfold move_all. intros H. bind_inv H as js Ej. injection H as <-. unfold kinds. cbn. rewrite map_length. f_equal.
  apply mapM_Forall2 in Ej. induction Ej as [|[[j i1] i2] y l l' E _ IH]; [reflexivity|]. bind_inv E as jb Eb. injection E as <-. cbn [map]. now rewrite j_move_kind, IH.
Qed.
Lemma kinds_rewind w sp sr w' : length sr = length (w_joints w) -> rewind w sp sr = Ok w' -> kinds w' = kinds w.
Proof.
  unfold rewind. intros HL H. bind_inv H as js Ej. injection H as <-. unfold kinds. cbn. rewrite mapi_length'. f_equal.
  apply mapM_Forall2 in Ej. revert Ej. change (w_joints (world_set_p w sp)) with (w_joints w). generalize (world_set_p w sp). intros w1. revert sr HL js.
  induction (w_joints w) as [|[[j i1] i2] l IH]; intros [|c sr] HL js E; try discriminate; inversion E as [|? y ? l' E1 E2]; subst; [reflexivity|].
  bind_inv E1 as jb Eb. injection E1 as <-. cbn [map]. rewrite j_update_kind, (IH sr) by (auto; injection HL; auto). reflexivity.
Qed.
Lemma kinds_find o hd w w' : handler_frame hd -> find_contacts o hd w = Ok w' -> kinds w' = kinds w.
Proof.
  intros Hf H. pose proof (find_contacts_inv _ _ _ _ H) as (bs & cs & clk & E). unfold kinds. f_equal; [|now rewrite E].
  apply (find_contacts_frame _ _ _ _ Hf) in H. rewrite <- (map_length forget), H. apply map_length.
Qed.
Lemma kinds_joints w w' : kinds w = kinds w' -> length (w_joints w) = length (w_joints w').
Proof. unfold kinds. intros H. injection H as _ H. apply (f_equal (@length _)) in H. now rewrite !map_length in H. Qed.

(** *** nothing but the engine reads the cache *)
Definition re (c : option (mat T)) (r : res (world T)) : res (world T) := do w <- r; Ok (with_cache w c).
Lemma set_v_re c w v : set_v (with_cache w c) v = re c (set_v w v).
Proof. unfold set_v, re. cbn. now destruct (Nat.eqb _ _). Qed.
Lemma move_all_re c w dt : move_all (with_cache w c) dt = re c (move_all w dt).
Proof. unfold move_all, re. cbn. now destruct (mapM _ _). Qed.
Lemma rewind_re c w sp sr : rewind (with_cache w c) sp sr = re c (rewind w sp sr).
Proof. unfold rewind, re. cbn. now destruct (mapM _ _). Qed.
Lemma find_contacts_re c o hd w : find_contacts o hd (with_cache w c) = re c (find_contacts o hd w).
Proof. unfold find_contacts, re. cbn. destruct (fold_left _ _ _) as [[[cs bs] clk]|]; reflexivity. Qed.
Lemma step_loop_re c fuel o hd : forall w sp sr dt, step_loop fuel o hd (with_cache w c) sp sr dt =
  do r <- step_loop fuel o hd w sp sr dt; Ok (with_cache (fst r) c, snd r).
Proof.
  induction fuel as [|fuel IH]; intros w sp sr dt; [reflexivity|]. cbn [step_loop]. rewrite move_all_re. destruct (move_all w dt) as [w1|]; [|reflexivity].
  cbn [re bind]. rewrite find_contacts_re. destruct (find_contacts o hd w1) as [w2|]; [|reflexivity]. cbn [re bind].
  change (no_penetration (with_cache w2 c)) with (no_penetration w2). change (w_strict (with_cache w2 c)) with (w_strict w2).
  change (w_dt (with_cache w2 c)) with (w_dt w2). destruct (no_penetration w2); [reflexivity|]. destruct (negb _ && _)%bool; [reflexivity|].
  rewrite rewind_re. destruct (rewind w2 sp sr) as [w3|]; [|reflexivity]. cbn [re bind]. apply IH.
Qed.

(** *** validity of the cache *)
Definition sys w : mat T := dyn_matrix (3 * length (w_bodies w)) (w_num_constraints w) (w_M w) (Je w).
Definition valid w : Prop :=
  (w_static_inverse w = true -> all_static w) /\
  (forall inv, w_cache w = Some inv -> w_static_inverse w = true /\ la_inv la (sys w) = Ok inv).
Lemma valid_kinds w w' : kinds w' = kinds w -> cfg w' = cfg w -> w_cache w' = w_cache w -> valid w -> valid w'.
Proof.
  intros HK HC Hc [V1 V2]. cfg_fields HC. unfold valid, sys. assert (EL : length (w_bodies w') = length (w_bodies w)) by (unfold kinds in HK; congruence).
  assert (ES : w_static_inverse w' = w_static_inverse w) by congruence. assert (EN : w_num_constraints w' = w_num_constraints w) by congruence. assert (EM : w_M w' = w_M w) by congruence.
  rewrite ES, Hc. split.
  - intros H. apply (all_static_kinds w); auto.
  - intros inv Hi. destruct (V2 inv Hi) as [S1 S2]. split; [exact S1|]. rewrite EL, EN, EM. rewrite <- (Je_kinds w w') by auto. exact S2.
Qed.

Lemma solve_uncached w dt : valid w ->
  solve_dynamics la mi (with_cache w None) dt = (do r <- solve_dynamics la mi w dt; Ok (fst r, if w_static_inverse w then match w_contacts w with [] => snd r | _ => None end else None)) /\
  (forall v c, solve_dynamics la mi w dt = Ok (v, c) -> valid (with_cache w c)).
Proof.
  intros [V1 V2]. unfold solve_dynamics. cbv zeta. change (w_contacts (with_cache w None)) with (w_contacts w).
  change (world_apply_forces (with_cache w None) (w_t (with_cache w None))) with (world_apply_forces w (w_t w)).
  destruct (world_apply_forces w (w_t w)) as [f|er]; [|split; [reflexivity|discriminate]]. cbn [bind].
  destruct (w_contacts w) as [|c0 cs] eqn:EC.
  - change (w_cache (with_cache w None)) with (@None (mat T)). cbv iota.
    change (dyn_matrix (3 * length (w_bodies (with_cache w None))) (w_num_constraints (with_cache w None)) (w_M (with_cache w None)) (Je (with_cache w None))) with (sys w).
    change (dyn_matrix (3 * length (w_bodies w)) (w_num_constraints w) (w_M w) (Je w)) with (sys w).
    change (w_static_inverse (with_cache w None)) with (w_static_inverse w). change (w_num_constraints (with_cache w None)) with (w_num_constraints w).
    change (w_bodies (with_cache w None)) with (w_bodies w). change (w_M (with_cache w None)) with (w_M w). change (w_v (with_cache w None)) with (w_v w).
    destruct (w_cache w) as [inv|] eqn:Ec.
    + destruct (V2 inv eq_refl) as [S1 S2]. rewrite S2, S1. cbn [bind fst snd]. split; [reflexivity|]. intros v c H. injection H as <- <-. split; [exact V1|].
      intros i Hi. cbn in Hi. injection Hi as <-. split; [exact S1|exact S2].
    + destruct (la_inv la (sys w)) as [inv|er] eqn:Ei; [|split; [reflexivity|discriminate]]. cbn [bind fst snd]. split; [now destruct (w_static_inverse w)|].
      intros v c H. injection H as <- <-. split; [exact V1|]. intros i Hi. cbn in Hi. destruct (w_static_inverse w) eqn:ES; [|discriminate]. injection Hi as <-. split; [exact ES|exact Ei].
  - change (contact_problem (with_cache w None)) with (contact_problem w). change (w_fric_dirs (with_cache w None)) with (w_fric_dirs w). change (w_num_constraints (with_cache w None)) with (w_num_constraints w).
    change (w_bodies (with_cache w None)) with (w_bodies w). change (w_M (with_cache w None)) with (w_M w). change (w_v (with_cache w None)) with (w_v w). rewrite <- ?EC.
    destruct (contact_problem w _) as [pr|er]; [|split; [reflexivity|discriminate]]. cbn [bind].
    destruct (lcp_forward _ _ _ _ _ _) as [r|er]; [|split; [reflexivity|discriminate]]. cbn [bind]. destruct r as [[[|x xs] sv]|]; try (split; [reflexivity|discriminate]).
    cbn [bind fst snd]. split; [cbn; now destruct (w_static_inverse w)|]. intros v c H. injection H as <- <-. now split.
Qed.
Lemma post_uncached w : valid w -> post_stabilization la (with_cache w None) = post_stabilization la w.
Proof.
  intros [V1 V2]. unfold post_stabilization. cbv zeta. change (w_contacts (with_cache w None)) with (w_contacts w). destruct (w_contacts w) as [|c0 cs] eqn:EC; [|reflexivity].
  change (w_cache (with_cache w None)) with (@None (mat T)).
  change (dyn_matrix (3 * length (w_bodies (with_cache w None))) (w_num_constraints (with_cache w None)) (w_M (with_cache w None)) (Je (with_cache w None))) with (sys w).
  change (w_num_constraints (with_cache w None)) with (w_num_constraints w).
  change (w_bodies (with_cache w None)) with (w_bodies w). change (w_v (with_cache w None)) with (w_v w).
  destruct (w_cache w) as [inv|] eqn:Ec; [|reflexivity]. destruct (V2 inv eq_refl) as [_ ->]. reflexivity.
Qed.

Lemma tries_valid o hd sp sr w dt k w' dt' : handler_frame hd -> length sr = length (w_joints w) -> tries o hd sp sr w dt k w' dt' ->
  valid w -> kinds w' = kinds w /\ valid w' /\ w_cache w' = w_cache w.
Proof.
  intros Hf HL H V. induction H as [w dt w1 w2 M F _ | w dt w1 w2 w3 k w' dt' M F _ _ R H IH].
  - pose proof (kinds_move _ _ _ M) as K1. pose proof (kinds_find _ _ _ _ Hf F) as K2.
    assert (C1 : w_cache w1 = w_cache w) by (apply move_all_inv in M; destruct M as [? ->]; reflexivity).
    assert (C2 : w_cache w2 = w_cache w1) by (apply find_contacts_inv in F; destruct F as (? & ? & ? & ->); reflexivity).
    pose proof (valid_kinds _ _ K1 (move_all_cfg _ _ _ M) C1 V) as V1. split; [congruence|]. split; [|congruence]. exact (valid_kinds _ _ K2 (find_contacts_cfg _ _ _ _ F) C2 V1).
  - pose proof (kinds_move _ _ _ M) as K1. pose proof (kinds_find _ _ _ _ Hf F) as K2.
    assert (C1 : w_cache w1 = w_cache w) by (apply move_all_inv in M; destruct M as [? ->]; reflexivity).
    assert (C2 : w_cache w2 = w_cache w1) by (apply find_contacts_inv in F; destruct F as (? & ? & ? & ->); reflexivity).
    assert (C3 : w_cache w3 = w_cache w2) by (apply rewind_inv in R; destruct R as (? & ->); reflexivity).
    pose proof (kinds_joints _ _ K1). pose proof (kinds_joints _ _ K2). pose proof (kinds_rewind w2 sp sr w3 ltac:(congruence) R) as K3. pose proof (kinds_joints _ _ K3).
    pose proof (valid_kinds _ _ K1 (move_all_cfg _ _ _ M) C1 V) as V1. pose proof (valid_kinds _ _ K2 (find_contacts_cfg _ _ _ _ F) C2 V1) as V2.
    pose proof (valid_kinds _ _ K3 (rewind_cfg _ _ _ _ R) C3 V2) as V3.
    destruct (IH ltac:(congruence) V3) as (I1 & I2 & I3). split; [congruence|]. split; [exact I2|congruence].
Qed.

Notation cached := (pdipm_engine la mi).
Notation uncached := (without_cache (pdipm_engine la mi)).
Lemma step_dt_uncached fuel o hd w dt : handler_frame hd -> valid w ->
  step_dt fuel o hd uncached (with_cache w None) dt = re None (step_dt fuel o hd cached w dt) /\
  (forall w', step_dt fuel o hd cached w dt = Ok w' -> valid w').
Proof.
  intros Hf V. destruct (solve_uncached w dt V) as [E1 E2]. unfold step_dt. cbn [e_solve e_post without_cache pdipm_engine].
  change (with_cache (with_cache w None) None) with (with_cache w None). change (w_bodies (with_cache w None)) with (w_bodies w). change (w_joints (with_cache w None)) with (w_joints w).
  rewrite E1. destruct (solve_dynamics la mi w dt) as [[nv c]|er]; [|split; [reflexivity|discriminate]]. cbn [bind fst snd]. pose proof (E2 nv c eq_refl) as V0. clear E1 E2.
  change (with_cache (with_cache w None) None) with (with_cache (with_cache w c) None). rewrite set_v_re.
  destruct (set_v (with_cache w c) nv) as [w1|er] eqn:E1; [|split; [reflexivity|discriminate]]. cbn [re bind]. rewrite step_loop_re.
  set (sp := cat3 _). set (sr := map _ _).
  assert (V1 : valid w1). { apply (valid_kinds (with_cache w c)); auto; [apply (kinds_set_v _ _ _ E1)|apply (set_v_cfg _ _ _ E1)|]. apply set_v_inv in E1. destruct E1 as [_ ->]. reflexivity. }
  assert (L1 : length sr = length (w_joints w1)). { unfold sr. rewrite map_length. symmetry. apply (kinds_joints w1 (with_cache w c)), (kinds_set_v _ _ _ E1). }
  destruct (step_loop fuel o hd w1 sp sr dt) as [[w2 dt']|er] eqn:ES; [|split; [reflexivity|discriminate]]. cbn [bind fst snd].
  apply step_loop_tries in ES. destruct ES as (k & _ & Htr). destruct (tries_valid _ _ _ _ _ _ _ _ _ Hf L1 Htr V1) as (_ & V2 & _).
  change (w_post_stab (with_cache w2 None)) with (w_post_stab w2). destruct (w_post_stab w2).
  2:{ cbn [bind]. split; [reflexivity|]. intros w' H. injection H as <-. exact V2. }
  change (with_cache (with_cache w2 None) None) with (with_cache w2 None). change (w_v (with_cache w2 None)) with (w_v w2). rewrite (post_uncached w2 V2).
  destruct (post_stabilization la w2) as [dp|er]; [|split; [reflexivity|discriminate]]. cbn [bind]. rewrite set_v_re.
  destruct (set_v w2 _) as [wa|er] eqn:Ea; [|split; [reflexivity|discriminate]]. cbn [re bind]. rewrite move_all_re.
  destruct (move_all wa dt') as [wb|er] eqn:Eb; [|split; [reflexivity|discriminate]]. cbn [re bind]. rewrite set_v_re.
  destruct (set_v wb _) as [wc|er] eqn:Ec; [|split; [reflexivity|discriminate]]. cbn [re bind]. rewrite find_contacts_re.
  destruct (find_contacts o hd wc) as [wd|er] eqn:Ed; [|split; [reflexivity|discriminate]]. cbn [re bind]. split; [reflexivity|]. intros w' H. injection H as <-.
  assert (Vd : valid wd); [|exact Vd].
  apply (valid_kinds wc); [apply (kinds_find _ _ _ _ Hf Ed)|apply (find_contacts_cfg _ _ _ _ Ed)|apply find_contacts_inv in Ed; destruct Ed as (? & ? & ? & ->); reflexivity|].
  apply (valid_kinds wb); [apply (kinds_set_v _ _ _ Ec)|apply (set_v_cfg _ _ _ Ec)|apply set_v_inv in Ec; destruct Ec as [_ ->]; reflexivity|].
  apply (valid_kinds wa); [apply (kinds_move _ _ _ Eb)|apply (move_all_cfg _ _ _ Eb)|apply move_all_inv in Eb; destruct Eb as [? ->]; reflexivity|].
  apply (valid_kinds w2); [apply (kinds_set_v _ _ _ Ea)|apply (set_v_cfg _ _ _ Ea)|apply set_v_inv in Ea; destruct Ea as [_ ->]; reflexivity|exact V2].
Qed.
Lemma fixed_uncached lfuel o hd end_t fuel : handler_frame hd -> forall w, valid w ->
  fixed_loop fuel lfuel o hd uncached end_t (with_cache w None) = re None (fixed_loop fuel lfuel o hd cached end_t w) /\
  (forall w', fixed_loop fuel lfuel o hd cached end_t w = Ok w' -> valid w').
Proof.
  intros Hf. induction fuel as [|fuel IH]; intros w V; cbn [fixed_loop]; [split; [reflexivity|discriminate]|].
  change (w_t (with_cache w None)) with (w_t w). destruct (w_t w <? end_t)%num.
  - destruct (step_dt_uncached lfuel o hd w (end_t - w_t w)%num Hf V) as [E1 E2]. rewrite E1. destruct (step_dt lfuel o hd cached w _) as [w1|er]; [|split; [reflexivity|discriminate]].
    cbn [re bind]. apply IH, E2. reflexivity.
  - split; [reflexivity|]. intros w' H. now injection H as <-.
Qed.
Lemma exec_uncached fuel o hd ops : handler_frame hd -> forall w, valid w ->
  exec fuel o hd uncached ops (with_cache w None) = re None (exec fuel o hd cached ops w) /\ (forall w', exec fuel o hd cached ops w = Ok w' -> valid w').
Proof.
  intros Hf. induction ops as [|op ops IH]; intros w V; cbn [exec]; [split; [reflexivity|intros w' H; now injection H as <-]|].
  destruct op as [fx|dt|v].
  - unfold step. destruct fx.
    + change (w_t (with_cache w None)) with (w_t w). change (w_dt (with_cache w None)) with (w_dt w). destruct (fixed_uncached fuel o hd (w_t w + w_dt w)%num fuel Hf w V) as [E1 E2]. rewrite E1.
      clear E1. destruct (fixed_loop fuel fuel o hd cached (w_t w + w_dt w)%num w) as [w1|er]; [|split; [reflexivity|discriminate]]. cbn [re bind]. apply IH, E2. reflexivity.
    + change (w_dt (with_cache w None)) with (w_dt w). destruct (step_dt_uncached fuel o hd w (w_dt w) Hf V) as [E1 E2]. rewrite E1. clear E1.
      destruct (step_dt fuel o hd cached w (w_dt w)) as [w1|er]; [|split; [reflexivity|discriminate]]. cbn [re bind]. apply IH, E2. reflexivity.
  - destruct (step_dt_uncached fuel o hd w dt Hf V) as [E1 E2]. rewrite E1. clear E1.
    destruct (step_dt fuel o hd cached w dt) as [w1|er]; [|split; [reflexivity|discriminate]]. cbn [re bind]. apply IH, E2. reflexivity.
  - rewrite set_v_re. destruct (set_v w v) as [w1|er] eqn:E1; [|split; [reflexivity|discriminate]]. cbn [re bind]. apply IH.
    apply (valid_kinds w); auto; [apply (kinds_set_v _ _ _ E1)|apply (set_v_cfg _ _ _ E1)|]. apply set_v_inv in E1. destruct E1 as [_ ->]. reflexivity.
Qed.
Lemma init_valid o hd heap bodies cons dt eps tol fd ps st w : handler_frame hd ->
  world_init o hd heap bodies cons dt eps tol fd ps st = Ok w -> valid w /\ w_cache w = None.
Proof.
  intros Hf H. unfold world_init in H. destruct bodies as [|b0 bs0]; [discriminate|]. bind_inv H as js Ej. bind_inv H as w1 E1. bind_inv H as w2 E2.
  destruct (st && negb (no_penetration w2))%bool; [discriminate|]. injection H as <-. set (w0 := mkWorld _ _ _ _ _ _ _ _ _ _ _ _ _ _ _ _ _) in E1.
  assert (C : w_cache w2 = None). { apply find_contacts_inv in E2. destruct E2 as (? & ? & ? & ->). apply set_v_inv in E1. destruct E1 as [_ ->]. reflexivity. }
  split; [|exact C]. split; [|rewrite C; discriminate]. intros S.
  apply (all_static_kinds w1); [symmetry; apply (kinds_find _ _ _ _ Hf E2)|]. apply (all_static_kinds w0); [symmetry; apply (kinds_set_v _ _ _ E1)|].
  assert (S0 : forallb j_static cons = true). { apply find_contacts_cfg in E2. apply set_v_cfg in E1. unfold cfg in *. change (w_static_inverse w0 = true). congruence. }
  unfold all_static. cbn [w0 w_joints]. apply mapM_Forall2 in Ej. clear - Ej S0. induction Ej as [|j e l l' E _ IH]; [constructor|]. cbn [forallb] in S0. apply andb_true_iff in S0. destruct S0 as [S1 S2].
  constructor; [|now apply IH]. bind_inv E as i1 E1. destruct (j_b2 j); [bind_inv E as i2 E2|]; injection E as <-; exact S1.
Qed.

(** C24 *)
Lemma cache_never_stale fuel o hd heap bodies cons dt eps tol fd ps st w0 ops : handler_frame hd ->
  world_init o hd heap bodies cons dt eps tol fd ps st = Ok w0 ->
  exec fuel o hd uncached ops w0 = (do w <- exec fuel o hd cached ops w0; Ok (with_cache w None)).
Proof.
  intros Hf H. destruct (init_valid _ _ _ _ _ _ _ _ _ _ _ _ Hf H) as [V C]. destruct (exec_uncached fuel o hd ops Hf w0 V) as [E _]. unfold re in E. rewrite <- E. f_equal.
  destruct w0. cbn in C. subst. reflexivity.
Qed.
Lemma cache_correct fuel o hd heap bodies cons dt eps tol fd ps st w0 ops w inv : handler_frame hd ->
  world_init o hd heap bodies cons dt eps tol fd ps st = Ok w0 -> exec fuel o hd cached ops w0 = Ok w ->
  w_cache w = Some inv -> la_inv la (sys w) = Ok inv.
Proof.
  intros Hf H HE Hi. destruct (init_valid _ _ _ _ _ _ _ _ _ _ _ _ Hf H) as [V C]. destruct (exec_uncached fuel o hd ops Hf w0 V) as [_ E]. now apply (E w HE).
Qed.
End CacheFacts.
