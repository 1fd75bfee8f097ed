(** An engine that answers exactly when two balls collide on a line, and the runs of C86's examples *)
From Coq Require Import List Arith ZArith Bool Reals Lra Lia Psatz.
From Verif Require Import Num Tensor Utils Bodies Forces Constraints Contacts World Spec GeoSpec BodySpec JointSpec EngineSpec WellSpec SceneSpec BilliardSpec
     RBase ResFacts WorldFacts BilliardFacts BilliardProps.
Import ListNotations.
Open Scope R_scope.

Definition duel_engine : engine R :=
  {| e_solve := fun w _ =>
       let va := vget (w_v w) 1 in let vb := vget (w_v w) 4 in
       match w_contacts w, w_bodies w with
       | _ :: _, [a; b] =>
           let k := (1 + (b_rest a + b_rest b) / 2) / (b_mass a + b_mass b) * (va - vb) in
           if Rlt_dec vb va then Ok ([0; va - b_mass b * k; 0; 0; vb + b_mass a * k; 0], None) else Ok ([0; va; 0; 0; vb; 0], None)
       | _, _ => Ok ([0; va; 0; 0; vb; 0], None)
       end;
     e_post := fun w => Ok (w_v w) |}.
Definition duel_impulse (d : duel) (va vb : R) : R := (1 + d_rest d) * (d_ma d * d_mb d) / (d_ma d + d_mb d) * (va - vb).

Lemma engine_answers d xa va xb vb t cs cache clk h : sensible d -> 0 <= d_fa d -> 0 <= d_fb d -> contacts_of d (gap d xa xb) cs ->
  exists v c imps, e_solve duel_engine (dw d xa va xb vb t cs cache clk) h = Ok (v, c) /\ response (dw d xa va xb vb t cs cache clk) h v imps.
Proof.
  intros [h1 h2 h3 h4 h5 h6 h7 h8] Fa Fb [C1 C2]. destruct (Rle_dec (gap d xa xb) (d_eps d)) as [L|L].
  - destruct (C2 L) as (c & -> & (_ & P1 & P2 & HN)). destruct c as [n p q pen i1 i2]. destruct p as [px py], q as [qx qy]. cbn in P1, P2, HN. subst py qy.
    unfold duel_engine. cbn [e_solve dw w_v w_contacts w_bodies vget nth ball_a ball_b ball b_rest b_mass]. destruct (Rlt_dec vb va) as [Lt|Ge].
    + exists [0; va - lost d * (va - vb); 0; 0; vb + gained d * (va - vb); 0], None, [(duel_impulse d va vb, 0)].
      split.
      { replace (d_mb d * ((1 + (d_ea d + d_eb d) / 2) / (d_ma d + d_mb d) * (va - vb))) with (lost d * (va - vb)) by (unfold lost, d_rest; field; lra).
        replace (d_ma d * ((1 + (d_ea d + d_eb d) / 2) / (d_ma d + d_mb d) * (va - vb))) with (gained d * (va - vb)) by (unfold gained, d_rest; field; lra). reflexivity. }
      assert (Hi : 0 <= duel_impulse d va vb).
      { unfold duel_impulse. apply Rmult_le_pos; [|lra]. apply Rmult_le_pos; [|apply Rlt_le, Rinv_0_lt_compat; lra]. apply Rmult_le_pos; [lra|]. nra. }
      exists (vzeros 6), []. split; [reflexivity|]. split; [reflexivity|].
      assert (E : vb + gained d * (va - vb) - (va - lost d * (va - vb)) = d_rest d * (va - vb)) by (unfold gained, lost; field; lra).
      destruct HN as [(-> & -> & ->)|(-> & -> & ->)]; (split; [split; [reflexivity|split; [reflexivity|]]|split; [reflexivity|]]).
      1, 3: intros x Lx; do 6 (destruct x as [|? x]; [discriminate|]); destruct x; [|discriminate];
        unfold kinetic, constraint_velocity, contact_power, component, relative_velocity, point_velocity, v3_at, vget, dot, duel_impulse, gained, lost; cbn; rnum; field; lra.
      all: apply Forall2_cons; [|apply Forall2_nil]; constructor; unfold mixed, normal_velocity, slip_velocity, component, relative_velocity, point_velocity, v3_at, vget; cbn; rnum;
        fold (d_rest d); rewrite ?Rabs_R0; try lra; unfold d_rest in *; try lra.
      all: try (assert (0 <= (d_fa d + d_fb d) / 2 * duel_impulse d va vb) by (apply Rmult_le_pos; lra); lra).
      all: try (match goal with |- context[Rabs ?x] => replace x with 0 by ring end; rewrite Rabs_R0; ring).
    + exists [0; va; 0; 0; vb; 0], None, [(0, 0)]. split; [reflexivity|]. exists (vzeros 6), []. split; [reflexivity|]. split; [reflexivity|].
      assert (0 <= d_rest d * (vb - va)) by (apply Rmult_le_pos; lra).
      destruct HN as [(-> & -> & ->)|(-> & -> & ->)]; (split; [split; [reflexivity|split; [reflexivity|]]|split; [reflexivity|]]).
      1, 3: intros x Lx; do 6 (destruct x as [|? x]; [discriminate|]); destruct x; [|discriminate];
        unfold kinetic, constraint_velocity, contact_power, component, relative_velocity, point_velocity, v3_at, vget, dot; cbn; rnum; ring.
      all: apply Forall2_cons; [|apply Forall2_nil]; constructor; unfold mixed, normal_velocity, slip_velocity, component, relative_velocity, point_velocity, v3_at, vget; cbn; rnum;
        rewrite ?Rabs_R0; unfold d_rest in *; try lra.
      all: try (match goal with |- context[Rabs ?x] => replace x with 0 by ring end; rewrite Rabs_R0; ring).
  - rewrite (C1 ltac:(lra)). exists [0; va; 0; 0; vb; 0], None, []. split; [reflexivity|]. exists (vzeros 6), []. split; [reflexivity|]. split; [reflexivity|].
    split; [split; [reflexivity|split; [reflexivity|]]|split; [reflexivity|constructor]].
    intros x Lx; do 6 (destruct x as [|? x]; [discriminate|]); destruct x; [|discriminate]. unfold kinetic, constraint_velocity, contact_power, component, v3_at, vget, dot; cbn; rnum; ring.
Qed.
Theorem engine_exact fuel gf o d x xb v : sensible d -> 0 <= d_fa d -> 0 <= d_fb d -> broadphase_ok o -> 0 <= gap d x xb -> 0 < v -> v * d_dt d <= d_eps d + d_tol d ->
  exact_along (S fuel) o (diff_handler gf o) duel_engine d x xb v.
Proof.
  intros Hd Fa Fb Ho Hg Hv Hf.
  assert (G : forall n m, (m < n)%nat -> exact_at d o gf fuel duel_engine x xb v m).
  { induction n as [|n IH]; intros m Hm; [lia|]. intros w Ew. destruct (noticed d x xb v m) as (k & Lk & Hfar & Hk).
    destruct (run_stage d Hd o Ho gf fuel duel_engine x xb v Hv Hg Hf m k) as (w' & Ew' & (cs & cache & clk & E & HC)); [intros j Hj; apply IH; lia|exact Hfar|destruct Hk; [left; lia|auto]|].
    rewrite Ew in Ew'. injection Ew' as <-. cbn zeta in E, HC. rewrite E. apply engine_answers; auto. }
  intros n w Ew. exact (G (S n) n ltac:(lia) w Ew).
Qed.
(** billiard balls: radius 1, mass 1, fully elastic, half a unit apart, time step 1/8, velocity 1, 16 steps *)
Definition billiard : duel := {| d_ra := 1; d_rb := 1; d_ma := 1; d_mb := 1; d_ea := 1; d_eb := 1; d_fa := 1/2; d_fb := 1/2; d_dt := 1/8; d_eps := 1/10; d_tol := 1/10; d_strict := true |}.
Lemma billiard_sensible : sensible billiard.
Proof. constructor; unfold d_rest; cbn; lra. Qed.
Lemma billiard_noticed : noticed_after billiard 0 (5/2) 1 4.
Proof. split; unfold gap; cbn; [lra|]. intros j Hj. do 4 (destruct j as [|j]; [cbn; lra|]). lia. Qed.
