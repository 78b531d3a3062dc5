(** Proofs about core/scope.hpp. *)
From Verif Require Import Base Scope_Model Core_Spec.

Definition INV (st : gstate) (s : istate) : Prop :=
  gs_next st = is_next s /\ gs_log st = is_log s /\
  (forall l, is_in l (is_released s) = true -> l < gs_next st) /\
  (forall l f, gs_cell st l = Fn f -> l < gs_next st /\
     match f with None => is_in l (is_released s) = true | Some c => cl_id c = l /\ is_in l (is_released s) = false end).
Definition FRAME (st st' : gstate) (s s' : istate) : Prop :=
  gs_next st <= gs_next st' /\
  (forall l, is_in l (is_released s) = true -> is_in l (is_released s') = true) /\
  forall l, l < gs_next st ->
    gs_cell st' l = match gs_cell st l with Dead => Dead | Fn f => Fn (if is_in l (is_released s') then None else f) end.
Definition ENV (env : genv) (st : gstate) : Prop :=
  forall x l, genv_at x env = Some l -> l < gs_next st /\ gs_cell st l <> Dead.

Lemma FRAME_refl : forall st s, INV st s -> FRAME st st s s.
Proof.
  intros st s (_ & _ & _ & H). split; [lia|]. split; [auto|]. intros l _. destruct (gs_cell st l) as [|f] eqn:C; auto.
  destruct (is_in l (is_released s)) eqn:I; auto. destruct (H l f C) as [_ H']. destruct f; [destruct H'; congruence|reflexivity].
Qed.
Lemma FRAME_trans : forall st1 st2 st3 s1 s2 s3, FRAME st1 st2 s1 s2 -> FRAME st2 st3 s2 s3 -> FRAME st1 st3 s1 s3.
Proof.
  intros st1 st2 st3 s1 s2 s3 (N1 & M1 & C1) (N2 & M2 & C2). split; [lia|]. split; [auto|]. intros l Hl.
  rewrite C2 by lia. rewrite C1 by exact Hl. destruct (gs_cell st1 l) as [|f]; auto.
  destruct (is_in l (is_released s2)) eqn:I2; [rewrite (M2 l I2); reflexivity|reflexivity].
Qed.
Lemma ENV_frame : forall env st st' s s', ENV env st -> FRAME st st' s s' -> ENV env st'.
Proof.
  intros env st st' s s' H (N1 & _ & C) x l Hx. destruct (H x l Hx) as [Hl Hd]. split; [lia|].
  rewrite C by exact Hl. destruct (gs_cell st l); congruence.
Qed.
Lemma INV_event : forall e st s, INV st s -> INV (gs_event e st) (is_event e s).
Proof. intros e st s (A & B & C & D). split; [exact A|]. split; [cbn; congruence|]. split; auto. Qed.
Lemma FRAME_event : forall e st st' s s', FRAME (gs_event e st) st' (is_event e s) s' -> FRAME st st' s s'.
Proof. intros e st st' s s' H. exact H. Qed.
Lemma ENV_event : forall e env st, ENV env st -> ENV env (gs_event e st).
Proof. intros e env st H. exact H. Qed.


Definition allowed (unc : N) (p : prog) : Prop := (unc = 0 /\ none_while_unwinding p = true) \/ unconditional p = true.

Definition SIM (fuel : nat) (unc : N) (env : genv) (p : prog) (st : gstate) (s : istate) : Prop :=
  exists st', exec fuel unc env p st = (fst (ideal p env s), st') /\ INV st' (snd (ideal p env s)) /\ FRAME st st' s (snd (ideal p env s)).

Lemma set_dead_inv : forall l st s, INV st s -> INV (gs_set l Dead st) s.
Proof.
  intros l st s (A & B & C & D). split; [exact A|]. split; [exact B|]. split; [exact C|]. intros k f E. cbn in E.
  destruct (k =? l); [discriminate|]. apply D in E. exact E.
Qed.
Lemma set_dead_frame : forall l st st' s s', gs_next st <= l -> FRAME st st' s s' -> FRAME st (gs_set l Dead st') s s'.
Proof.
  intros l st st' s s' Hl (A & B & C). split; [exact A|]. split; [exact B|]. intros k Hk. cbn.
  destruct (N.eqb_spec k l); [lia|]. apply C; exact Hk.
Qed.

Lemma simulation : forall fuel p unc env st s, (psize p <= fuel)%nat -> assign_free p = true -> allowed unc p ->
  INV st s -> ENV env st -> SIM fuel unc env p st s.
Proof.
  induction fuel as [|fuel IH]; intros p unc env st s Hf Ha Hc HI HE.
  { destruct p; cbn in Hf; lia. }
  destruct p; cbn [psize assign_free] in Hf, Ha; unfold SIM; cbn [exec ideal].
  - eexists; split; [reflexivity|]. split; [exact HI|]. apply FRAME_refl; exact HI.
  - destruct (IH p unc env (gs_event (EvStep n) st) (is_event (EvStep n) s)) as (st' & E & I & F); auto; try lia.
    { apply INV_event; exact HI. }
    exists st'. split; [exact E|]. split; [exact I|]. eapply FRAME_event; exact F.
  - eexists; split; [reflexivity|]. split; [exact HI|]. apply FRAME_refl; exact HI.
  - eexists; split; [reflexivity|]. split; [exact HI|]. apply FRAME_refl; exact HI.
  - (* guard *)
    apply andb_prop in Ha as [Ha1 Ha2].
    cbn [guard_make]. set (l := gs_next st). set (clo := mk_clo l p1 env).
    set (st1 := mk_gs _ (l + 1) _).
    destruct HI as (In & Il & Ir & Ic). rewrite <- In. fold l. set (s1 := mk_is (is_released s) (l + 1) (EvMake l k :: is_log s)).
    assert (I1 : INV st1 s1).
    { split; [reflexivity|]. split; [cbn; rewrite Il; reflexivity|]. split; [intros j Hj; specialize (Ir j Hj); cbn; lia|].
      intros j f Ej. cbn in Ej. destruct (N.eqb_spec j l).
      - injection Ej as <-. subst j. cbn. split; [lia|]. split; [reflexivity|]. destruct (is_in l (is_released s)) eqn:I; auto. specialize (Ir l I). unfold l in Ir. lia.
      - destruct (Ic j f Ej). split; [unfold st1, l; cbn; lia|assumption]. }
    assert (E1 : ENV ((x, l) :: env) st1).
    { intros y j. cbn [genv_at gs_next gs_cell st1]. destruct (x =? y).
      - intros [= <-]. split; [cbn; lia|]. unfold st1; cbn. rewrite N.eqb_refl. discriminate.
      - intros Hy. destruct (HE y j Hy). split; [unfold st1, l; cbn; lia|]. unfold st1; cbn. destruct (j =? l); [discriminate|assumption]. }
    assert (F0 : FRAME st st1 s s1).
    { split; [unfold st1, l; cbn; lia|]. split; [auto|]. intros j Hj. unfold st1; cbn [gs_cell]. destruct (N.eqb_spec j l); [unfold l in *; lia|].
      cbn [is_released s1]. destruct (gs_cell st j) as [|f] eqn:C; auto. destruct (is_in j (is_released s)) eqn:I; auto. destruct (Ic j f C) as [_ H']. destruct f; [destruct H'; congruence|reflexivity]. }
    assert (A1 : allowed unc p2).
    { destruct Hc as [[Hu Hn]|Hu]; cbn in *.
      - apply andb_prop in Hn as [_ Hn]. left; auto.
      - apply andb_prop in Hu as [_ Hu]. right; auto. }
    destruct (IH p2 unc ((x, l) :: env) st1 s1 ltac:(lia) Ha2 A1 I1 E1) as (st2 & -> & I2 & F2).
    destruct (ideal p2 ((x, l) :: env) s1) as [r s2]; cbn [fst snd] in *.
    assert (F02 := FRAME_trans _ _ _ _ _ _ F0 F2).
    change (scope_left r) with (leaves r). destruct (leaves r) eqn:Lr; cbn [andb]; [|eexists; split; [reflexivity|]; split; [exact I2|exact F02]].
    assert (C2 : gs_cell st2 l = Fn (if is_in l (is_released s2) then None else Some clo)).
    { destruct F2 as (_ & _ & F2). rewrite F2 by (unfold st1; cbn; lia). unfold st1; cbn. rewrite N.eqb_refl. reflexivity. }
    rewrite C2. destruct (is_in l (is_released s2)) eqn:Rel; cbn [negb andb].
    { eexists; split; [reflexivity|]. split; [apply set_dead_inv; exact I2|]. apply set_dead_frame; [unfold l; lia|exact F02]. }
    set (unc' := match r with RThrown _ => unc + 1 | _ => unc end).
    assert (W : check_condition k unc' = wanted k r).
    { destruct Hc as [[-> Hn]|Hu]; cbn in *.
      - destruct k, r; try discriminate Lr; reflexivity.
      - destruct k; try discriminate Hu. reflexivity. }
    rewrite W. destruct (wanted k r) eqn:Wr.
    2:{ eexists; split; [reflexivity|]. split; [apply set_dead_inv; exact I2|]. apply set_dead_frame; [unfold l; lia|exact F02]. }
    cbn [cl_env cl_body cl_id clo].
    assert (A2 : allowed unc' p1).
    { destruct Hc as [[-> Hn]|Hu]; cbn in *.
      - apply andb_prop in Hn as [Hn _]. destruct k; [right; exact Hn| |right; exact Hn]. left; split; [|exact Hn].
        destruct r; try discriminate; reflexivity.
      - apply andb_prop in Hu as [Hu _]. apply andb_prop in Hu as [_ Hu]. right; exact Hu. }
    destruct (IH p1 unc' env (gs_event (EvRun l) st2) (is_event (EvRun l) s2) ltac:(lia) Ha1 A2) as (st3 & E3 & I3 & F3).
    { apply INV_event; exact I2. }
    { apply ENV_event. eapply ENV_frame; [exact HE|exact F02]. }
    unfold clo; cbn [cl_id cl_body cl_env]. rewrite E3. destruct (ideal p1 env (is_event (EvRun l) s2)) as [r2 s3]; cbn [fst snd] in *.
    assert (F03 : FRAME st st3 s s3) by (eapply FRAME_trans; [exact F02|eapply FRAME_event; exact F3]).
    destruct r2; eexists; (split; [reflexivity|]); (split; [first [exact I3|apply set_dead_inv; exact I3]|first [exact F03|apply set_dead_frame; [unfold l; lia|exact F03]]]).
  - (* release *)
    change (bound_to x env) with (genv_at x env). destruct (genv_at x env) as [l|] eqn:El; [|eexists; split; [reflexivity|]; split; [exact HI|]; apply FRAME_refl; exact HI].
    destruct (HE x l El) as [Hl Hd]. destruct (gs_cell st l) as [|f] eqn:C; [congruence|]. clear Hd.
    destruct HI as (In & Il & Ir & Ic).
    set (s1 := if is_in l (is_released s) then s else _).
    assert (P : INV (guard_release l st) s1 /\ FRAME st (guard_release l st) s s1).
    { unfold guard_release. rewrite C. destruct (Ic l f C) as [_ Hf']. destruct f as [c|].
      - destruct Hf' as [E I]. unfold s1. rewrite I. split.
        + split; [exact In|]. split; [cbn; rewrite Il, E; reflexivity|]. split.
          * cbn. intros j Hj. apply orb_prop in Hj as [Hj|Hj]; [apply N.eqb_eq in Hj; subst; exact Hl|auto].
          * cbn. intros j f Ej. destruct (N.eqb_spec j l); [injection Ej as <-; subst; split; [exact Hl|reflexivity]|].
            cbn [orb]. apply Ic; exact Ej.
        + split; [cbn; lia|]. split; [cbn; intros j Hj; unfold is_in in Hj; rewrite Hj; apply orb_true_r|]. cbn. intros j Hj. destruct (N.eqb_spec j l).
          * subst. rewrite C. reflexivity.
          * cbn [orb]. destruct (gs_cell st j) as [|g] eqn:Cj; auto. destruct (Ic j g Cj) as [_ H']. destruct g; [destruct H' as [_ H']; unfold is_in in H'; rewrite H'; reflexivity|].
            unfold is_in in H'. rewrite H'. reflexivity.
      - unfold s1. rewrite Hf'. assert (HI : INV st s) by (split; [exact In|split; [exact Il|split; auto]]). split; [exact HI|apply FRAME_refl; exact HI]. }
    destruct P as [P1 P2].
    destruct (IH p unc env (guard_release l st) s1 ltac:(lia) Ha Hc P1 (ENV_frame _ _ _ _ _ HE P2)) as (st' & E & I & F).
    exists st'. split; [exact E|]. split; [exact I|]. eapply FRAME_trans; eauto.
  - discriminate.
  - (* block *)
    apply andb_prop in Ha as [Ha1 Ha2].
    assert (Hc1 : allowed unc p1 /\ allowed unc p2).
    { destruct Hc as [[Hu Hn]|Hu]; cbn in *; [apply andb_prop in Hn as [? ?]|apply andb_prop in Hu as [? ?]]; split; unfold allowed; auto. }
    destruct Hc1 as [Hc1 Hc2].
    destruct (IH p1 unc env st s ltac:(lia) Ha1 Hc1 HI HE) as (st1 & -> & I1 & F1).
    destruct (ideal p1 env s) as [r s1]; cbn [fst snd] in *.
    destruct r; try (eexists; split; [reflexivity|]; split; [exact I1|exact F1]).
    destruct (IH p2 unc env st1 s1 ltac:(lia) Ha2 Hc2 I1 (ENV_frame _ _ _ _ _ HE F1)) as (st2 & -> & I2 & F2).
    eexists; split; [reflexivity|]. split; [exact I2|eapply FRAME_trans; eauto].
  - (* try *)
    apply andb_prop in Ha as [Ha Ha3]. apply andb_prop in Ha as [Ha1 Ha2].
    assert (Hc1 : allowed unc p1 /\ allowed unc p2 /\ allowed unc p3).
    { destruct Hc as [[Hu Hn]|Hu]; cbn in *.
      - apply andb_prop in Hn as [Hn ?]. apply andb_prop in Hn as [? ?]. repeat split; left; auto.
      - apply andb_prop in Hu as [Hu ?]. apply andb_prop in Hu as [? ?]. repeat split; right; auto. }
    destruct Hc1 as (Hc1 & Hc2 & Hc3).
    destruct (IH p1 unc env st s ltac:(lia) Ha1 Hc1 HI HE) as (st1 & -> & I1 & F1).
    destruct (ideal p1 env s) as [r s1]; cbn [fst snd] in *.
    destruct r; try (eexists; split; [reflexivity|]; split; [exact I1|exact F1]).
    + destruct (IH p3 unc env st1 s1 ltac:(lia) Ha3 Hc3 I1 (ENV_frame _ _ _ _ _ HE F1)) as (st2 & -> & I2 & F2).
      eexists; split; [reflexivity|]. split; [exact I2|eapply FRAME_trans; eauto].
    + destruct (IH p2 unc env st1 s1 ltac:(lia) Ha2 Hc2 I1 (ENV_frame _ _ _ _ _ HE F1)) as (st2 & -> & I2 & F2).
      assert (F02 := FRAME_trans _ _ _ _ _ _ F1 F2).
      destruct (ideal p2 env s1) as [r s2]; cbn [fst snd] in *.
      destruct r; try (eexists; split; [reflexivity|]; split; [exact I2|exact F02]).
      destruct (IH p3 unc env st2 s2 ltac:(lia) Ha3 Hc3 I2 (ENV_frame _ _ _ _ _ HE F02)) as (st3 & -> & I3 & F3).
      eexists; split; [reflexivity|]. split; [exact I3|eapply FRAME_trans; eauto].
  - (* call *)
    apply andb_prop in Ha as [Ha1 Ha2].
    assert (Hc1 : allowed unc p1 /\ allowed unc p2).
    { destruct Hc as [[Hu Hn]|Hu]; cbn in *; [apply andb_prop in Hn as [? ?]|apply andb_prop in Hu as [? ?]]; split; unfold allowed; auto. }
    destruct Hc1 as [Hc1 Hc2].
    destruct (IH p1 unc env st s ltac:(lia) Ha1 Hc1 HI HE) as (st1 & -> & I1 & F1).
    destruct (ideal p1 env s) as [r s1]; cbn [fst snd] in *.
    destruct r; try (eexists; split; [reflexivity|]; split; [exact I1|exact F1]);
    destruct (IH p2 unc env st1 s1 ltac:(lia) Ha2 Hc2 I1 (ENV_frame _ _ _ _ _ HE F1)) as (st2 & -> & I2 & F2);
    (eexists; split; [reflexivity|]; split; [exact I2|eapply FRAME_trans; eauto]).
Qed.

Lemma guards_like_finally : forall p fuel, (psize p <= fuel)%nat -> assign_free p = true -> none_while_unwinding p = true ->
  run_guards fuel p = ideal_run p.
Proof.
  intros p fuel Hf Ha Hn. unfold run_guards, ideal_run.
  destruct (simulation fuel p 0 [] gs_init (mk_is [] 0 []) Hf Ha) as (st & -> & (_ & Hl & _) & _).
  - left; auto.
  - split; [reflexivity|]. split; [reflexivity|]. split; [discriminate|]. intros l f; discriminate.
  - intros x l; discriminate.
  - destruct (ideal p [] (mk_is [] 0 [])) as [r s]; cbn [fst snd] in *. rewrite Hl. reflexivity.
Qed.
