(** Scenes that are their own image stay so *)
From Coq Require Import List Arith ZArith Bool Reals Lia Lra Permutation.
From Verif Require Import BodyFacts Num Tensor Utils Bodies Forces Constraints Contacts World Lapack Pdipm Lcp Engines Spec GeoSpec BodySpec JointSpec ContactSpec EngineSpec LapackSpec SymSpec SceneSpec
     RBase ResFacts WorldFacts HandlerFacts LayoutFacts HistFacts BodyFacts BodyReach ListedFacts SceneFacts SceneContacts SceneInit.
Import ListNotations.
Open Scope R_scope.

Theorem symmetric_session la mi gf fuel f o heap bs js dt eps tol fd ps st ops w0 w : lapack_ok la -> broadphase_ok o -> round_scene eps bs ->
  up_to_order (fun b b' => b' = turn_body f b) bs bs -> up_to_order (built_alike f bs) js js -> Forall2 (turned_force f) heap heap ->
  Forall2 (same_call f bs bs) ops ops ->
  world_init o (diff_handler gf o) heap bs js dt eps tol fd ps st = Ok w0 -> exec fuel o (diff_handler gf o) (pdipm_engine la mi) ops w0 = Ok w ->
  same_scene f w w.
Proof.
  intros HL Ho Hr HB HJ Hh F E0 E. pose proof (scene_session la mi gf gf fuel f o o heap heap bs bs js js dt eps tol fd ps st ops ops HL Ho Ho Hr HB HJ Hh F) as A.
  rewrite E0 in A. cbn [bind] in A. rewrite E in A. exact A.
Qed.
Lemma world_ids la mi gf fuel o heap bs js dt eps tol fd ps st ops w0 w :
  world_init o (diff_handler gf o) heap bs js dt eps tol fd ps st = Ok w0 -> exec fuel o (diff_handler gf o) (pdipm_engine la mi) ops w0 = Ok w ->
  map b_id (w_bodies w) = map b_id bs.
Proof.
  intros E0 E. pose proof (world_steps _ same_attrs_steps _ _ _ _ _ _ _ _ _ _ _ _ _ _ _ _ (diff_handler_frame gf o) E0 E) as F. clear E0 E. symmetry.
  induction F as [|b b1 l l1 (Hi & _) F IH]; [reflexivity|]. cbn [map]. rewrite IH, Hi. reflexivity.
Qed.
Lemma own_image f w b : same_scene f w w -> NoDup (map b_id (w_bodies w)) -> In b (w_bodies w) -> v_name f (b_id b) = b_id b -> turn_body f b = b.
Proof.
  intros (_ & (l & HP & HF) & _) N Hb Hn. assert (Hl : In b l) by (apply (Permutation_in _ HP Hb)). destruct (F2_in_l _ _ _ _ HF Hl) as (b' & Hb' & ->).
  apply In_nth_error in Hb, Hb'. destruct Hb as [i Ei], Hb' as [k Ek]. assert (E : k = i) by (apply (same_place _ _ _ _ _ N Ek Ei); cbn [turn_body b_id]; exact Hn). subst k. congruence.
Qed.
Theorem fixed_session la mi gf fuel f o heap bs js dt eps tol fd ps st ops w0 w b : lapack_ok la -> broadphase_ok o -> round_scene eps bs ->
  up_to_order (fun b b' => b' = turn_body f b) bs bs -> up_to_order (built_alike f bs) js js -> Forall2 (turned_force f) heap heap ->
  Forall2 (same_call f bs bs) ops ops ->
  world_init o (diff_handler gf o) heap bs js dt eps tol fd ps st = Ok w0 -> exec fuel o (diff_handler gf o) (pdipm_engine la mi) ops w0 = Ok w ->
  In b (w_bodies w) -> v_name f (b_id b) = b_id b ->
  place f (b_pos b) = b_pos b /\ turn_vel f (b_v b) = b_v b.
Proof.
  intros HL Ho Hr HB HJ Hh F E0 E Hb Hn. pose proof (symmetric_session la mi gf fuel f o heap bs js dt eps tol fd ps st ops w0 w HL Ho Hr HB HJ Hh F E0 E) as S.
  assert (N : NoDup (map b_id (w_bodies w))) by (rewrite (world_ids _ _ _ _ _ _ _ _ _ _ _ _ _ _ _ _ _ E0 E); apply Hr).
  pose proof (own_image f w b S N Hb Hn) as I. split; [exact (f_equal b_pos I)|exact (f_equal b_v I)].
Qed.
Theorem axis_session la mi gf fuel f o heap bs js dt eps tol fd ps st ops w0 w b : lapack_ok la -> broadphase_ok o -> round_scene eps bs ->
  v_mirror f = true -> v_angle f = 0 ->
  up_to_order (fun b b' => b' = turn_body f b) bs bs -> up_to_order (built_alike f bs) js js -> Forall2 (turned_force f) heap heap ->
  Forall2 (same_call f bs bs) ops ops ->
  world_init o (diff_handler gf o) heap bs js dt eps tol fd ps st = Ok w0 -> exec fuel o (diff_handler gf o) (pdipm_engine la mi) ops w0 = Ok w ->
  In b (w_bodies w) -> v_name f (b_id b) = b_id b ->
  snd (b_pos b) = 0 /\ fst (b_v b) = 0 /\ snd (snd (b_v b)) = 0.
Proof.
  intros HL Ho Hr Hm Ha HB HJ Hh F E0 E Hb Hn. destruct (fixed_session la mi gf fuel f o heap bs js dt eps tol fd ps st ops w0 w b HL Ho Hr HB HJ Hh F E0 E Hb Hn) as [P V].
  assert (G : forall a, place f a = a -> snd a = 0). { intros [x y]. unfold place. rewrite Hm, Ha, rotate_0. cbn [fst snd]. intros H. injection H as H. lra. }
  split; [now apply G|]. split.
  - pose proof (f_equal fst V) as W. unfold turn_vel, hand in W. rewrite Hm in W. cbn [fst] in W. lra.
  - apply G. exact (f_equal snd V).
Qed.
Theorem centre_session la mi gf fuel f o heap bs js dt eps tol fd ps st ops w0 w b : lapack_ok la -> broadphase_ok o -> round_scene eps bs ->
  v_mirror f = false -> cos (v_angle f) <> 1 ->
  up_to_order (fun b b' => b' = turn_body f b) bs bs -> up_to_order (built_alike f bs) js js -> Forall2 (turned_force f) heap heap ->
  Forall2 (same_call f bs bs) ops ops ->
  world_init o (diff_handler gf o) heap bs js dt eps tol fd ps st = Ok w0 -> exec fuel o (diff_handler gf o) (pdipm_engine la mi) ops w0 = Ok w ->
  In b (w_bodies w) -> v_name f (b_id b) = b_id b ->
  b_pos b = (0, 0) /\ snd (b_v b) = (0, 0).
Proof.
  intros HL Ho Hr Hm Ha HB HJ Hh F E0 E Hb Hn. destruct (fixed_session la mi gf fuel f o heap bs js dt eps tol fd ps st ops w0 w b HL Ho Hr HB HJ Hh F E0 E Hb Hn) as [P V].
  assert (G : forall a, place f a = a -> a = (0, 0)).
  { intros [x y]. unfold place, rotate. rewrite Hm. cbn [fst snd]. set (c := cos (v_angle f)) in *. set (s := sin (v_angle f)) in *. pose proof (cs1' (v_angle f)) as C. fold c s in C. intros H.
    assert (H1 : c * x - s * y = x) by exact (f_equal fst H). assert (H2 : s * x + c * y = y) by exact (f_equal snd H).
    assert (D : (1 - c) * (x * x + y * y) = 0) by (replace ((1 - c) * (x * x + y * y)) with (x * (x - (c * x - s * y)) + y * (y - (s * x + c * y))) by ring; rewrite H1, H2; ring).
    apply Rmult_integral in D. destruct D as [D|D]; [exfalso; apply Ha; lra|]. pose proof (Rle_0_sqr x) as Q1. pose proof (Rle_0_sqr y) as Q2. unfold Rsqr in Q1, Q2.
    assert (Ex : x * x = 0) by lra. assert (Ey : y * y = 0) by lra. apply Rmult_integral in Ex, Ey. apply f_equal2; destruct Ex, Ey; auto. }
  split; [now apply G|]. apply G. exact (f_equal snd V).
Qed.
Lemma force_same name apart (g : forceobj R) : turned_force (renamed name apart) g g.
Proof.
  intros t. destruct (force_value g t) as [u|]; cbn; [|exact I]. unfold turn_vel, place, hand. cbn. rewrite rotate_0, Rmult_1_l. destruct u as [a [x y]]. reflexivity.
Qed.
Theorem names_session la mi gf gf' fuel name apart o o' heap bs bs' js js' dt eps tol fd ps st ops ops' : lapack_ok la ->
  broadphase_ok o -> broadphase_ok o' -> round_scene eps bs ->
  up_to_order (fun b b' => b' = turn_body (renamed name apart) b) bs bs' -> up_to_order (built_alike (renamed name apart) bs) js js' ->
  Forall2 (same_call (renamed name apart) bs bs') ops ops' ->
  alike (same_scene (renamed name apart))
    (do w0 <- world_init o (diff_handler gf o) heap bs js dt eps tol fd ps st; exec fuel o (diff_handler gf o) (pdipm_engine la mi) ops w0)
    (do w0 <- world_init o' (diff_handler gf' o') heap bs' js' dt eps tol fd ps st; exec fuel o' (diff_handler gf' o') (pdipm_engine la mi) ops' w0).
Proof.
  intros HL Ho Ho' Hr HB HJ F. apply (scene_session la mi gf gf' fuel (renamed name apart) o o' heap heap); auto.
  clear. induction heap; constructor; auto. apply force_same.
Qed.
