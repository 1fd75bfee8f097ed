(** Concrete scenes described in different ways *)
From Coq Require Import List Arith ZArith Lia Bool Reals Lra Permutation.
From Verif Require Import Num Tensor Utils Bodies Forces Constraints Contacts World Lapack LapackRef Pdipm Lcp Engines
     Spec GeoSpec BodySpec JointSpec FreshSpec EngineSpec WellSpec ContactSpec SymSpec SceneSpec ResFacts RBase LinAlg LapackSpec PdipmSpec LuFacts HandlerFacts LayoutFacts EngineFacts ContactSys EngineBalance
     FloatEx RealEx ContactEx RunTotal EngineEx WellEx DriftEx ListedFacts SceneFacts SceneContacts SceneInit SceneSame.
Import ListNotations.
Open Scope R_scope.

(** the pairs of [pair_oracle], in the opposite order and the other way round *)
Definition flip_oracle : oracle R :=
  {| o_collide := fun _ gs => rev (map (fun p => (snd p, fst p)) (all_pairs (length gs))); o_narrow := fun _ _ _ => []; o_choice := fun _ _ => 0%nat |}.
Lemma pairs_in i j n : In (i, j) (all_pairs n) <-> (i < j < n)%nat.
Proof.
  unfold all_pairs. rewrite in_flat_map. split.
  - intros (x & Hx & Hj). apply in_map_iff in Hj. destruct Hj as (y & E & Hy). injection E as -> ->. apply in_seq in Hx, Hy. lia.
  - intros H. exists i. split; [apply in_seq; lia|]. apply in_map_iff. exists j. split; [reflexivity|apply in_seq; lia].
Qed.
Lemma NoDup_app_intro {A} (l m : list A) : NoDup l -> NoDup m -> (forall a, In a l -> In a m -> False) -> NoDup (l ++ m).
Proof.
  induction l as [|a l IH]; intros Hl Hm Hd; [exact Hm|]. inversion Hl as [|x y Ha Hl']; subst. cbn [app]. constructor.
  - rewrite in_app_iff. intros [H|H]; [contradiction|]. apply (Hd a); [now left|exact H].
  - apply IH; auto. intros b H1 H2. apply (Hd b); [now right|exact H2].
Qed.
Lemma pairs_nodup n : NoDup (all_pairs n).
Proof.
  unfold all_pairs. generalize (seq_NoDup n 0). generalize (seq 0 n) as l. induction l as [|i l IH]; intros H; [constructor|]. inversion H as [|x y Hi Hl]; subst. cbn [flat_map]. apply NoDup_app_intro.
  - apply FinFun.Injective_map_NoDup; [intros a b E; now injection E|apply seq_NoDup].
  - auto.
  - intros [a b] Ha Hb. apply in_map_iff in Ha. destruct Ha as (y & E & _). injection E as -> ->. apply in_flat_map in Hb. destruct Hb as (x & Hx & Hy). apply in_map_iff in Hy. destruct Hy as (z & E & _). injection E as -> ->. contradiction.
Qed.
Lemma pairs_minmax n : map (fun '(i, j) => (Nat.min i j, Nat.max i j)) (all_pairs n) = all_pairs n.
Proof.
  rewrite <- (map_id (all_pairs n)) at 2. apply map_ext_in. intros [i j] H. apply pairs_in in H. rewrite Nat.min_l, Nat.max_r by lia. reflexivity.
Qed.
Lemma pair_ok : broadphase_ok (@pair_oracle R).
Proof.
  split; [apply pair_sane|]. split.
  - intros k gs i j gi gj Hij H1 H2 _. assert (Hi : (i < length gs)%nat) by (apply nth_error_Some; congruence). assert (Hj : (j < length gs)%nat) by (apply nth_error_Some; congruence). cbn [o_collide pair_oracle]. rewrite !pairs_in. lia.
  - intros k gs. cbn [o_collide pair_oracle]. rewrite pairs_minmax. apply pairs_nodup.
Qed.
Lemma flip_ok : broadphase_ok flip_oracle.
Proof.
  assert (G : forall i j n, In (i, j) (rev (map (fun p => (snd p, fst p)) (all_pairs n))) <-> (j < i < n)%nat).
  { intros i j n. rewrite <- in_rev, in_map_iff. split; [intros ([a b] & E & H); injection E as -> ->; now apply pairs_in in H|]. intros H. exists (j, i). split; [reflexivity|now apply pairs_in]. }
  split; [|split].
  - intros k gs i j H. cbn [o_collide flip_oracle] in H. apply G in H. lia.
  - intros k gs i j gi gj Hij H1 H2 _. assert (Hi : (i < length gs)%nat) by (apply nth_error_Some; congruence). assert (Hj : (j < length gs)%nat) by (apply nth_error_Some; congruence). cbn [o_collide flip_oracle]. rewrite !G. lia.
  - intros k gs. cbn [o_collide flip_oracle]. rewrite map_rev, map_map. apply (Permutation_NoDup (Permutation_rev _)).
    rewrite (map_ext _ (fun '(i, j) => (Nat.min i j, Nat.max i j))); [rewrite pairs_minmax; apply pairs_nodup|]. intros [i j]. cbn [fst snd]. rewrite Nat.min_comm, Nat.max_comm. reflexivity.
Qed.

(** a disc running into one of two that are held *)
Definition slot_bodies : list (body R) := slot_discs (-1) 2 0 1 0 0.
Definition slot_ties : list (joint R) := slot_joints 0 0 0.
Lemma slot_round : round_scene (1/10) slot_bodies.
Proof.
  split; [apply slot_available|]. split; [repeat (apply Forall_cons; [reflexivity|]); apply Forall_nil|]. split; [apply slot_ids|]. split.
  - intros b1 b2 H1 H2. cbn in H1, H2. destruct H1 as [<-|[<-|[<-|[]]]], H2 as [<-|[<-|[<-|[]]]]; cbn; lra.
  - intros b1 b2 H1 H2 X. cbn in H1, H2. destruct H2 as [<-|[<-|[<-|[]]]]; destruct X.
Qed.
(** the chain of wheels under gravity *)
Lemma chain_round om0 om1 om2 vy0 vy1 vy2 : round_scene (1/10) (chain_bodies om0 om1 om2 vy0 vy1 vy2).
Proof.
  split; [|split; [|split; [|split]]].
  - pose proof (chain_wheels om0 om1 om2 vy0 vy1 vy2) as H. rewrite Forall_forall in *. intros b Hb. apply wheel_available. auto.
  - repeat (apply Forall_cons; [reflexivity|]); apply Forall_nil.
  - constructor; [cbn; intuition discriminate|constructor; [cbn; intuition discriminate|constructor; [cbn; tauto|constructor]]].
  - intros b1 b2 H1 H2. cbn in H1, H2. destruct H1 as [<-|[<-|[<-|[]]]], H2 as [<-|[<-|[<-|[]]]]; cbn; lra.
  - intros b1 b2 H1 H2 X. cbn in H1, H2. destruct H2 as [<-|[<-|[<-|[]]]]; destruct X.
Qed.
(** gravity along the turned axis *)
Definition turned_heap (th : view) : fheap R := [FExt (fun t => turn_vel th (down_force t)) 10].
Lemma turned_gravity th : Forall2 (turned_force th) falling_heap (turned_heap th).
Proof.
  constructor; [|constructor]. intros t. cbn. unfold turn_vel, place, hand, rotate, v3mulr. cbn. rnum. destruct (v_mirror th); cbn; (apply f_equal2; [ring|]); apply f_equal2; ring.
Qed.
Definition turned_chain (th : view) (om0 om1 om2 vy0 vy1 vy2 : R) : list (joint R) :=
  let l0 := turn_body th (link0 om0 vy0) in let l1 := turn_body th (link1 om1 vy1) in let l2 := turn_body th (link2 om2 vy2) in
  [fixed_init l1 l2; joint_init l0 None (place th (-2, 0)); joint_init l0 (Some l1) (place th (5/2, 0))].
Lemma chain_alike th om0 om1 om2 vy0 vy1 vy2 : up_to_order (built_alike th (chain_bodies om0 om1 om2 vy0 vy1 vy2)) (chain_joints om0 om1 om2 vy0 vy1 vy2) (turned_chain th om0 om1 om2 vy0 vy1 vy2).
Proof.
  unfold chain_joints. set (l0 := link0 om0 vy0). set (l1 := link1 om1 vy1). set (l2 := link2 om2 vy2).
  exists [fixed_init l1 l2; joint_init l0 None (-2, 0); joint_init l0 (Some l1) (5/2, 0)]. split.
  - change [joint_init l0 None (-2, 0); joint_init l0 (Some l1) (5/2, 0); fixed_init l1 l2] with ([joint_init l0 None (-2, 0); joint_init l0 (Some l1) (5/2, 0)] ++ [fixed_init l1 l2]). symmetry. apply Permutation_cons_append.
  - constructor; [apply ba_fixed; [cbn; auto|cbn; auto|discriminate]|]. constructor; [apply ba_joint1; cbn; auto|]. constructor; [apply ba_joint2; [cbn; auto|cbn; auto|discriminate]|constructor].
Qed.
