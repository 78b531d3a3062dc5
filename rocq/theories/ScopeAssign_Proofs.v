(** With assignments between guards (core/scope.hpp). *)
From Verif Require Import Base Scope_Model Core_Spec.

Definition bal (t : list gev) : Prop := forall n, (runs (firstn n t) <= makes (firstn n t))%nat.
Lemma runs_app a b : runs (a ++ b) = (runs a + runs b)%nat.
Proof. unfold runs. rewrite filter_app, app_length. reflexivity. Qed.
Lemma makes_app a b : makes (a ++ b) = (makes a + makes b)%nat.
Proof. unfold makes. rewrite filter_app, app_length. reflexivity. Qed.
Lemma bal_nil : bal [].
Proof. intros n. rewrite firstn_nil. cbn. lia. Qed.
Lemma bal_app a b : bal a -> bal b -> bal (a ++ b).
Proof.
  intros A B n. rewrite firstn_app, runs_app, makes_app. specialize (A n). specialize (B (n - List.length a)%nat). lia.
Qed.
Lemma bal_event e t : (forall id, e <> EvRun id) -> bal t -> bal (e :: t).
Proof.
  intros E H [|n]; [cbn; lia|]. cbn [firstn]. specialize (H n). unfold runs, makes in *. cbn [filter]. destruct e; cbn [List.length]; try lia. exfalso. eapply E. reflexivity.
Qed.
Lemma bal_guard id k a id' b : bal a -> bal b -> bal (EvMake id k :: a ++ EvRun id' :: b).
Proof.
  intros A B n. destruct n as [|n]; [cbn; lia|]. cbn [firstn]. rewrite firstn_app. change (EvMake id k :: firstn n a ++ ?x) with ([EvMake id k] ++ firstn n a ++ x).
  rewrite !runs_app, !makes_app. specialize (A n). destruct (n - List.length a)%nat as [|m]; cbn [firstn]; [cbn; lia|].
  change (EvRun id' :: firstn m b) with ([EvRun id'] ++ firstn m b). rewrite runs_app, makes_app. specialize (B m). cbn. lia.
Qed.
Definition grown (st st' : gstate) (t : list gev) : Prop := gs_log st' = rev t ++ gs_log st.
Lemma grown_refl st : grown st st [].
Proof. reflexivity. Qed.
Lemma grown_trans a b c s t : grown a b s -> grown b c t -> grown a c (s ++ t).
Proof. unfold grown. intros -> ->. rewrite rev_app_distr, app_assoc_reverse || rewrite rev_app_distr, app_assoc. reflexivity. Qed.
Lemma release_log l st : exists t, grown st (guard_release l st) t /\ bal t.
Proof.
  unfold guard_release. destruct (gs_cell st l) as [|[c|]]; [exists []; split; [apply grown_refl|apply bal_nil]| |exists []; split; [apply grown_refl|apply bal_nil]].
  exists [EvRelease (cl_id c)]. split; [reflexivity|]. apply bal_event; [discriminate|apply bal_nil].
Qed.

Lemma balanced : forall fuel p unc env st r st', exec fuel unc env p st = (r, st') -> exists t, grown st st' t /\ bal t.
Proof.
  induction fuel as [|fuel IH]; intros p unc env st r st' H.
  { cbn in H. injection H as <- <-. exists []. split; [apply grown_refl|apply bal_nil]. }
  assert (NONE : forall s, exists t, grown s s t /\ bal t) by (intros s; exists []; split; [apply grown_refl|apply bal_nil]).
  assert (SEQ : forall a b c, (exists t, grown a b t /\ bal t) -> (exists t, grown b c t /\ bal t) -> exists t, grown a c t /\ bal t).
  { intros a b c (t & G & B) (t' & G' & B'). exists (t ++ t'). split; [eapply grown_trans; eauto|apply bal_app; auto]. }
  destruct p; cbn [exec] in H.
  - injection H as <- <-. auto.
  - apply IH in H. apply SEQ with (2 := H). exists [EvStep n]. split; [reflexivity|]. apply bal_event; [discriminate|apply bal_nil].
  - injection H as <- <-. auto.
  - injection H as <- <-. auto.
  - cbn [guard_make] in H. set (l := gs_next st) in *. set (st1 := mk_gs _ (l + 1) _) in *.
    destruct (exec fuel unc ((x, l) :: env) p2 st1) as [r1 st2] eqn:E2. apply IH in E2. destruct E2 as (t & G & B).
    assert (G0 : grown st st1 [EvMake l k]) by reflexivity.
    assert (G2 : grown st st2 (EvMake l k :: t)) by exact (grown_trans _ _ _ _ _ G0 G).
    assert (B2 : bal (EvMake l k :: t)) by (apply bal_event; [discriminate|auto]).
    assert (A : forall s, gs_log s = gs_log st2 -> exists t, grown st s t /\ bal t).
    { intros s E. exists (EvMake l k :: t). split; [|auto]. unfold grown in *. rewrite E. auto. }
    destruct (leaves r1); [|injection H as <- <-; eauto].
    destruct (gs_cell st2 l) as [|[c|]]; [injection H as <- <-; apply A; reflexivity| |injection H as <- <-; apply A; reflexivity].
    destruct (check_condition k _); [|injection H as <- <-; apply A; reflexivity].
    destruct (exec fuel _ (cl_env c) (cl_body c) (gs_event (EvRun (cl_id c)) st2)) as [r2 st3] eqn:E3. apply IH in E3. destruct E3 as (t' & G' & B').
    assert (G3 : grown st st3 (EvMake l k :: t ++ EvRun (cl_id c) :: t')).
    { change (EvMake l k :: t ++ EvRun (cl_id c) :: t') with ((EvMake l k :: t) ++ ([EvRun (cl_id c)] ++ t')).
      apply grown_trans with (1 := G2). apply grown_trans with (2 := G'). reflexivity. }
    assert (C : forall s, gs_log s = gs_log st3 -> exists t, grown st s t /\ bal t).
    { intros s E. exists (EvMake l k :: t ++ EvRun (cl_id c) :: t'). split; [unfold grown in *; rewrite E; auto|apply bal_guard; auto]. }
    destruct r2; injection H as <- <-; apply C; reflexivity.
  - destruct (genv_at x env) as [l|]; [|injection H as <- <-; auto].
    destruct (gs_cell st l); [injection H as <- <-; auto|]. apply IH in H. apply SEQ with (2 := H). apply release_log.
  - destruct (genv_at x env) as [l|], (genv_at y env) as [m|]; try (injection H as <- <-; auto; fail).
    destruct (gs_cell st l), (gs_cell st m); try (injection H as <- <-; auto; fail). apply IH in H. apply SEQ with (2 := H).
    exists []. split; [reflexivity|apply bal_nil].
  - destruct (exec fuel unc env p1 st) as [r1 st1] eqn:E1. apply IH in E1. destruct r1; try (injection H as <- <-; auto; fail). apply IH in H. eauto.
  - destruct (exec fuel unc env p1 st) as [r1 st1] eqn:E1. apply IH in E1. destruct r1; try (injection H as <- <-; auto; fail).
    + apply IH in H. eauto.
    + destruct (exec fuel unc env p2 st1) as [r2 st2] eqn:E2. apply IH in E2. destruct r2; try (injection H as <- <-; eauto; fail). apply IH in H. eauto.
  - destruct (exec fuel unc env p1 st) as [r1 st1] eqn:E1. apply IH in E1. destruct r1; try (injection H as <- <-; auto; fail); apply IH in H; eauto.
Qed.
Lemma never_more_runs : forall p fuel r log, run_guards fuel p = (r, log) -> forall n, (runs (firstn n log) <= makes (firstn n log))%nat.
Proof.
  intros p fuel r log H. unfold run_guards in H. destruct (exec fuel 0 [] p gs_init) as [r' st] eqn:E. injection H as <- <-.
  destruct (balanced _ _ _ _ _ _ _ E) as (t & G & B). unfold grown in G. cbn [gs_log gs_init] in G. rewrite G, app_nil_r, rev_involutive. exact B.
Qed.

(** Only functions of guards that were created run. *)
Definition made (st : gstate) : Prop :=
  (forall l c, gs_cell st l = Fn (Some c) -> exists k, In (EvMake (cl_id c) k) (gs_log st)) /\
  (forall a id b, gs_log st = a ++ EvRun id :: b -> exists k, In (EvMake id k) b).
Lemma made_event e st : (forall id, e <> EvRun id) -> made st -> made (gs_event e st).
Proof.
  intros E [A B]. split; cbn.
  - intros l c H. destruct (A l c H) as [k K]. eauto.
  - intros [|y a] id b H; [injection H as -> _; exfalso; eapply E; reflexivity|]. injection H as _ H. eauto.
Qed.
Lemma made_set l c st : (forall f, c = Fn (Some f) -> exists k, In (EvMake (cl_id f) k) (gs_log st)) -> made st -> made (gs_set l c st).
Proof.
  intros E [A B]. split; cbn; [|exact B]. intros j f. destruct (j =? l); [apply E|apply A].
Qed.
Lemma made_exec : forall fuel p unc env st r st', made st -> exec fuel unc env p st = (r, st') -> made st'.
Proof.
  induction fuel as [|fuel IH]; intros p unc env st r st' M H; [cbn in H; injection H as <- <-; auto|].
  destruct p; cbn [exec] in H.
  - injection H as <- <-. auto.
  - apply IH in H; auto. apply made_event; [discriminate|auto].
  - injection H as <- <-. auto.
  - injection H as <- <-. auto.
  - cbn [guard_make] in H. set (l := gs_next st) in *. set (st1 := mk_gs _ (l + 1) _) in *.
    assert (M1 : made st1).
    { destruct M as [A B]. split; unfold st1; cbn.
      - intros j c. destruct (j =? l); [intros [= <-]; cbn; eauto|]. intros K. destruct (A j c K) as [k' K']. eauto.
      - intros [|y a] id b K; [discriminate|]. injection K as _ K. eauto. }
    destruct (exec fuel unc ((x, l) :: env) p2 st1) as [r1 st2] eqn:E2. apply IH in E2; auto.
    assert (D : forall s, made s -> made (gs_set l Dead s)) by (intros s S; apply made_set; [discriminate|auto]).
    destruct (leaves r1); [|injection H as <- <-; auto].
    destruct (gs_cell st2 l) as [|[c|]] eqn:C2; [injection H as <- <-; auto| |injection H as <- <-; auto].
    destruct (check_condition k _); [|injection H as <- <-; auto].
    destruct (exec fuel _ (cl_env c) (cl_body c) (gs_event (EvRun (cl_id c)) st2)) as [r2 st3] eqn:E3. apply IH in E3.
    + destruct r2; injection H as <- <-; auto.
    + destruct E2 as [A B]. split; cbn.
      * intros j f K. destruct (A j f K) as [k' K']. eauto.
      * intros [|y a] id b K; [injection K as <- <-; eauto|]. injection K as _ K. eauto.
  - destruct (genv_at x env) as [l|]; [|injection H as <- <-; auto].
    destruct (gs_cell st l) eqn:C; [injection H as <- <-; auto|]. apply IH in H; auto.
    unfold guard_release. rewrite C. destruct f as [c|]; auto. apply made_set; [discriminate|]. apply made_event; [discriminate|auto].
  - destruct (genv_at x env) as [l|], (genv_at y env) as [m|]; try (injection H as <- <-; auto; fail).
    destruct (gs_cell st l), (gs_cell st m) eqn:C; try (injection H as <- <-; auto; fail). apply IH in H; auto.
    apply made_set; auto. intros g K. rewrite C in K. destruct M as [A _]. eapply A. rewrite C. exact K.
  - destruct (exec fuel unc env p1 st) as [r1 st1] eqn:E1. apply IH in E1; auto. destruct r1; try (injection H as <- <-; auto; fail). apply IH in H; auto.
  - destruct (exec fuel unc env p1 st) as [r1 st1] eqn:E1. apply IH in E1; auto. destruct r1; try (injection H as <- <-; auto; fail).
    + apply IH in H; auto.
    + destruct (exec fuel unc env p2 st1) as [r2 st2] eqn:E2. apply IH in E2; auto. destruct r2; try (injection H as <- <-; auto; fail). apply IH in H; auto.
  - destruct (exec fuel unc env p1 st) as [r1 st1] eqn:E1. apply IH in E1; auto. destruct r1; try (injection H as <- <-; auto; fail); apply IH in H; auto.
Qed.
Lemma runs_what_was_made : forall p fuel r log, run_guards fuel p = (r, log) ->
  forall a id b, log = a ++ EvRun id :: b -> exists k, In (EvMake id k) a.
Proof.
  intros p fuel r log H a id b E. unfold run_guards in H. destruct (exec fuel 0 [] p gs_init) as [r' st] eqn:X. injection H as <- <-.
  assert (M : made st).
  { eapply made_exec; [|exact X]. split; [discriminate|]. intros [|] ? ? K; discriminate. }
  destruct M as [_ M]. apply (f_equal (@rev gev)) in E. rewrite rev_involutive, rev_app_distr in E. cbn [rev] in E. rewrite <- app_assoc in E.
  destruct (M _ _ _ E) as [k K]. exists k. apply in_rev. exact K.
Qed.

(** Scope_exit guards that are never released: every guard runs one function. *)
Definition J (st : gstate) : Prop :=
  (forall l c, gs_cell st l = Fn (Some c) -> only_exit (cl_body c) = true) /\ (forall l, gs_cell st l <> Fn None).
Definition keeps (st st' : gstate) : Prop :=
  J st' /\ gs_next st <= gs_next st' /\ (forall j, j < gs_next st -> gs_cell st j <> Dead -> gs_cell st' j <> Dead).
Lemma keeps_refl st : J st -> keeps st st.
Proof. intros H. split; auto. split; [lia|auto]. Qed.
Lemma keeps_trans a b c : keeps a b -> keeps b c -> keeps a c.
Proof. intros (_ & N1 & A1) (J2 & N2 & A2). split; auto. split; [lia|]. intros j L D. apply A2; [lia|]. auto. Qed.
Lemma exact_count : forall fuel p unc env st r st', only_exit p = true -> J st -> exec fuel unc env p st = (r, st') ->
  keeps st st' /\ (leaves r = true -> (runs (gs_log st') + makes (gs_log st) = runs (gs_log st) + makes (gs_log st'))%nat).
Proof.
  induction fuel as [|fuel IH]; intros p unc env st r st' O M H; [cbn in H; injection H as <- <-; split; [apply keeps_refl; auto|discriminate]|].
  assert (STOP : forall s q, J s -> keeps s s /\ (leaves q = true -> (runs (gs_log s) + makes (gs_log s) = runs (gs_log s) + makes (gs_log s))%nat)).
  { intros s q S. split; [apply keeps_refl; auto|lia]. }
  destruct p; cbn [exec only_exit] in *; rewrite ?andb_true_iff in O.
  - injection H as <- <-. auto.
  - apply IH in H; auto.
  - injection H as <- <-. auto.
  - injection H as <- <-. auto.
  - destruct O as [[Ok1 O1] O2]. destruct k; try discriminate.
    cbn [guard_make] in H. set (l := gs_next st) in *. set (st1 := mk_gs _ (l + 1) _) in *.
    assert (M1 : J st1).
    { destruct M as [A B]. split; unfold st1; cbn; intros j.
      - intros c. destruct (j =? l); [intros [= <-]; auto|apply A].
      - destruct (j =? l); [discriminate|apply B]. }
    assert (K1 : keeps st st1).
    { split; auto. split; [unfold st1, l; cbn; lia|]. intros j L D. unfold st1; cbn. destruct (j =? l); [discriminate|auto]. }
    destruct (exec fuel unc ((x, l) :: env) p2 st1) as [r1 st2] eqn:E2. apply IH in E2; auto. destruct E2 as [K2 C2].
    assert (L2 : gs_cell st2 l <> Dead).
    { apply K2; unfold st1; cbn; [lia|]. rewrite N.eqb_refl. discriminate. }
    assert (M2 : J st2) by apply K2.
    assert (DK : forall s, keeps st s -> keeps st (gs_set l Dead s)).
    { intros s (S1 & S2 & S3). split; [|split; [exact S2|]].
      - destruct S1 as [A B]. split; cbn; intros j; [intros c K|intros K]; (destruct (j =? l); [discriminate|]); [exact (A j c K)|exact (B j K)].
      - intros j L D. cbn. destruct (N.eqb_spec j l); [unfold l in *; lia|auto]. }
    destruct (leaves r1) eqn:L1; [|injection H as <- <-; split; [eapply keeps_trans; eauto|congruence]].
    destruct (gs_cell st2 l) as [|[c|]] eqn:CC; [congruence| |exfalso; destruct M2 as [_ B]; eapply B; eauto].
    cbn [check_condition] in H.
    destruct (exec fuel _ (cl_env c) (cl_body c) (gs_event (EvRun (cl_id c)) st2)) as [r2 st3] eqn:E3. apply IH in E3.
    2:{ destruct M2 as [A _]. eapply A; eauto. }
    2:{ exact M2. }
    destruct E3 as [K3 C3].
    assert (K03 : keeps st st3).
    { apply keeps_trans with (1 := K1). apply keeps_trans with (1 := K2). exact K3. }
    assert (T : leaves r2 = true -> (runs (gs_log st3) + makes (gs_log st) = runs (gs_log st) + makes (gs_log st3))%nat).
    { intros L. specialize (C3 L). specialize (C2 eq_refl). unfold st1 in C2. cbn in C2, C3. unfold runs, makes in *. cbn in C2, C3. lia. }
    destruct r2; injection H as <- <-; (split; [auto|intros _; apply T; reflexivity] || (split; [auto|discriminate])).
  - discriminate.
  - destruct (genv_at x env) as [l|], (genv_at y env) as [m|]; try (injection H as <- <-; auto; fail).
    destruct (gs_cell st l) eqn:Cl, (gs_cell st m) eqn:C; try (injection H as <- <-; auto; fail).
    assert (K1 : keeps st (guard_assign l m st)).
    { unfold guard_assign. rewrite C. split; [|split; [cbn; lia|]].
      - destruct M as [A B]. split; cbn; intros j.
        + intros c K. destruct (j =? l); [apply (A m); rewrite C; exact K|apply (A j); exact K].
        + intros K. destruct (j =? l); [apply (B m); rewrite C; exact K|apply (B j); exact K].
      - intros j L D. cbn. destruct (j =? l); [discriminate|auto]. }
    apply IH in H; auto; [|apply K1]. destruct H as [K2 C2]. split; [eapply keeps_trans; eauto|exact C2].
  - destruct O as [O1 O2]. destruct (exec fuel unc env p1 st) as [r1 st1] eqn:E1. apply IH in E1; auto. destruct E1 as [K1 C1].
    destruct r1; try (injection H as <- <-; auto; fail). apply IH in H; auto; [|apply K1]. destruct H as [K2 C2].
    split; [eapply keeps_trans; eauto|]. intros L. specialize (C1 eq_refl). specialize (C2 L). lia.
  - destruct O as [[O1 O2] O3]. destruct (exec fuel unc env p1 st) as [r1 st1] eqn:E1. apply IH in E1; auto. destruct E1 as [K1 C1].
    destruct r1; try (injection H as <- <-; auto; fail).
    + apply IH in H; auto; [|apply K1]. destruct H as [K2 C2].
      split; [eapply keeps_trans; eauto|]. intros L. specialize (C1 eq_refl). specialize (C2 L). lia.
    + destruct (exec fuel unc env p2 st1) as [r2 st2] eqn:E2. apply IH in E2; auto; [|apply K1]. destruct E2 as [K2 C2]. specialize (C1 eq_refl).
      assert (K02 : keeps st st2) by (eapply keeps_trans; eauto).
      destruct r2; try (injection H as <- <-; split; auto; intros L; specialize (C2 L); lia).
      apply IH in H; auto; [|apply K2]. destruct H as [K3 C3]. specialize (C2 eq_refl).
      split; [eapply keeps_trans; eauto|]. intros L. specialize (C3 L). lia.
  - destruct O as [O1 O2]. destruct (exec fuel unc env p1 st) as [r1 st1] eqn:E1. apply IH in E1; auto. destruct E1 as [K1 C1].
    destruct r1; try (injection H as <- <-; auto; fail); (apply IH in H; auto; [|apply K1]); destruct H as [K2 C2];
    (split; [eapply keeps_trans; eauto|]; intros L; specialize (C1 eq_refl); specialize (C2 L); lia).
Qed.
Lemma one_run_per_guard : forall p fuel r log, only_exit p = true -> run_guards fuel p = (r, log) -> scope_left r = true -> runs log = makes log.
Proof.
  intros p fuel r log O H L. unfold run_guards in H. destruct (exec fuel 0 [] p gs_init) as [r' st] eqn:E. injection H as <- <-.
  apply exact_count in E; auto.
  - destruct E as [_ C]. replace (scope_left r') with (leaves r') in L by (destruct r'; reflexivity). specialize (C L). cbn in C.
    unfold runs, makes in *. cbn in C. rewrite <- !(rev_length (filter _ (gs_log st))) in C.
    assert (R : forall f (x : list gev), rev (filter f x) = filter f (rev x)).
    { intros f. induction x as [|y x IHx]; cbn; auto. rewrite filter_app, <- IHx. cbn. destruct (f y); cbn; [reflexivity|rewrite app_nil_r; reflexivity]. }
    rewrite !R in C. lia.
  - split; [discriminate|intros l; discriminate].
Qed.
