(** The solver and the ODE callback end (used for C69) *)
From Coq Require Import List Arith ZArith Bool Floats.
From Verif Require Import Num Tensor Utils Bodies Forces Constraints Contacts World Lapack LapackRef Pdipm Lcp Engines FloatSpec ClockFacts.
Import ListNotations.

Section Ends.
Context {T : Type} {N : Num T} (la : lapack T) (Hl : lapack_ends la).
Ltac walk := repeat first
  [ apply ends_bind; [|intros ? ?] | apply ends_ok | apply ends_mapM; intros | apply (proj1 Hl) | apply (proj2 Hl) | discriminate
  | match goal with |- context [match ?x with _ => _ end] => destruct x end ].
Lemma ends_pre nz nineq neq Q G F A : ends (pre_factor_kkt la nz nineq neq Q G F A).
Proof. unfold pre_factor_kkt. walk. Qed.
Lemma ends_factor nineq neq S R d : ends (factor_kkt la nineq neq S R d).
Proof. unfold factor_kkt. walk. Qed.
Lemma ends_loop nz nineq neq k eps lim : forall es best nni, ends (pd_loop la nz nineq neq k eps lim es best nni).
Proof.
  induction k as [|k IH]; intros es best nni; simpl; [destruct best; discriminate|]. destruct (factor_batch _ _ _ _); [|discriminate].
  destruct (match best with None => _ | Some _ => _ end) as [b1 n1]. destruct (_ || _ || _); [discriminate|apply IH].
Qed.
Lemma ends_forward nz nineq neq o ps : ends (lcp_forward la o nz nineq neq ps).
Proof.
  unfold lcp_forward. destruct (negb _); [discriminate|]. destruct (nineq =? 0)%nat; [discriminate|].
  apply ends_bind; [apply ends_mapM; intros; apply ends_pre|]. intros fs _. apply ends_bind; [|intros [[b|] es] _; discriminate].
  unfold pd_forward. apply ends_bind; [|intros; apply ends_loop]. apply ends_mapM. intros [pr [[Q S] R]]. unfold init_elt. apply ends_bind; [apply ends_factor|]. intros SL _. destruct (solve_kkt _ _ _ _ _ _ _ _ _ _ _ _) as [[[a b] c] d]. apply ends_ok.
Qed.
Lemma ends_engine mi : (forall w dt, ends (e_solve (pdipm_engine la mi) w dt)) /\ (forall w, ends (e_post (pdipm_engine la mi) w)).
Proof.
  split; intros; cbn [e_solve e_post pdipm_engine]; [unfold solve_dynamics|unfold post_stabilization].
  - apply ends_bind. { unfold world_apply_forces. apply ends_bind; [|intros; apply ends_ok]. apply ends_mapM. intros b. unfold body_apply_forces. apply ends_bind; [|intros; apply ends_ok]. apply ends_mapM. intros i. destruct (nth_error _ _); [|discriminate]. unfold force_value. walk. }
    intros f _. destruct (w_contacts w).
    + apply ends_bind; [|intros [a b] _; apply ends_ok]. destruct (w_cache w); [apply ends_ok|]. apply ends_bind; [apply (proj2 Hl)|intros; apply ends_ok].
    + apply ends_bind. { unfold contact_problem. apply ends_bind; [unfold Jf; walk|intros; apply ends_ok]. }
      intros pr _. apply ends_bind; [apply ends_forward|]. intros [[[|x xs] sv]|] _; discriminate.
  - destruct (w_contacts w).
    + apply ends_bind; [|intros; apply ends_ok]. destruct (w_cache w); [apply ends_ok|]. apply (proj2 Hl).
    + apply ends_bind; [apply ends_forward|]. intros [[[|x xs] sv]|] _; discriminate.
Qed.
Lemma ends_ode o (eps : T) clk bs i j : ends (ode_handler o eps clk bs i j).
Proof. unfold ode_handler. apply ends_bind; [apply ends_body|]. intros b1 _. apply ends_bind; [apply ends_body|]. intros b2 _. destruct (existsb _ _); [apply ends_ok|]. destruct (fold_left _ _ _). apply ends_ok. Qed.
Lemma ode_ends o mi : callbacks_end (ode_handler o) (pdipm_engine la mi).
Proof. split; [apply ends_ode|]. apply ends_engine. Qed.
End Ends.

Lemma ref_ends {T} {N : Num T} : lapack_ends (ref_lapack (T := T)).
Proof.
  assert (H : forall n (A : mat T), ends (ref_lu n A)).
  { induction n as [|n IH]; intros A; simpl; [apply ends_ok|]. destruct (swap _ _ _ _) as [|[|a r] rest]; try discriminate. destruct (neqb a _); [discriminate|]. apply ends_bind; auto. intros [D piv] _. apply ends_ok. }
  split; intros A; cbn; [apply H|]. unfold ref_inv, ref_getrf. apply ends_bind; [apply H|]. intros; apply ends_ok.
Qed.
