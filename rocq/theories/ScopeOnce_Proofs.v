(** Without assignments a guard's function runs at most once (core/scope.hpp). *)
From Verif Require Import Base Scope_Model Core_Spec.

Definition PRE (st : gstate) : Prop :=
  (forall l c, gs_cell st l = Fn (Some c) -> cl_id c = l) /\
  (forall l, gs_next st <= l -> gs_cell st l = Dead /\ about l (gs_log st) = []).
Definition bounded (env : genv) (st : gstate) : Prop := forall x l, genv_at x env = Some l -> l < gs_next st.
Definition once (l : N) (r : res) (h : list gev) : Prop :=
  exists k, (h = [EvMake l k] /\ (leaves r = true -> k <> KExit)) \/ h = [EvRun l; EvMake l k] \/ h = [EvRelease l; EvMake l k].
Definition same (l : N) (st st' : gstate) : Prop := gs_cell st' l = gs_cell st l /\ about l (gs_log st') = about l (gs_log st).
Definition released_now (env : genv) (l : N) (st st' : gstate) : Prop :=
  (exists x, genv_at x env = Some l) /\ (exists c, gs_cell st l = Fn (Some c)) /\ gs_cell st' l = Fn None /\
  about l (gs_log st') = EvRelease l :: about l (gs_log st).
Definition POST (env : genv) (st st' : gstate) (r : res) : Prop :=
  PRE st' /\ gs_next st <= gs_next st' /\
  (forall l, l < gs_next st -> same l st st' \/ released_now env l st st') /\
  (forall l, gs_next st <= l < gs_next st' -> once l r (about l (gs_log st')) /\ (leaves r = true -> gs_cell st' l = Dead)).

Lemma POST_refl : forall env st r, PRE st -> POST env st st r.
Proof. intros env st r H. split; [exact H|]. split; [lia|]. split; [left; split; reflexivity|]. intros; lia. Qed.
Lemma POST_trans : forall env st1 st2 st3 r1 r2, leaves r1 = true -> POST env st1 st2 r1 -> POST env st2 st3 r2 -> POST env st1 st3 r2.
Proof.
  intros env st1 st2 st3 r1 r2 L (P1 & N1 & O1 & W1) (P2 & N2 & O2 & W2). split; [exact P2|]. split; [lia|]. split.
  - intros l Hl. destruct (O1 l Hl) as [[A1 A2]|(X & C & B1 & B2)]; destruct (O2 l ltac:(lia)) as [[A3 A4]|(X' & C' & B3 & B4)].
    + left. split; congruence.
    + right. split; [exact X'|]. split; [rewrite <- A1; exact C'|]. split; [exact B3|congruence].
    + right. split; [exact X|]. split; [exact C|]. split; congruence.
    + exfalso. destruct C' as [c C']. congruence.
  - intros l Hl. destruct (N.lt_ge_cases l (gs_next st2)) as [Hl2|Hl2].
    + destruct (W1 l ltac:(lia)) as [H1 D1]. specialize (D1 L). destruct (O2 l Hl2) as [[A1 A2]|(X & [c C] & _)]; [|congruence].
      split; [|intros _; congruence]. rewrite A2. destruct H1 as [k H1]. exists k. destruct H1 as [[H1 K]|H1]; [|tauto]. left. split; [exact H1|]. intros _. apply K, L.
    + apply W2. lia.
Qed.
Lemma bounded_post : forall env st st' r, bounded env st -> POST env st st' r -> bounded env st'.
Proof. intros env st st' r H (_ & N1 & _) x l Hx. specialize (H x l Hx). lia. Qed.

Lemma counting : forall fuel p unc env st r st', assign_free p = true -> PRE st -> bounded env st ->
  exec fuel unc env p st = (r, st') -> POST env st st' r.
Proof.
  induction fuel as [|fuel IH]; intros p unc env st r st' Ha HP HB Hx.
  { cbn in Hx. injection Hx as <- <-. apply POST_refl; exact HP. }
  destruct p; cbn [assign_free] in Ha; cbn [exec] in Hx.
  - injection Hx as <- <-. apply POST_refl; exact HP.
  - assert (P : PRE (gs_event (EvStep n) st)) by exact HP.
    specialize (IH p unc env (gs_event (EvStep n) st) r st' Ha P HB Hx). exact IH.
  - injection Hx as <- <-. apply POST_refl; exact HP.
  - injection Hx as <- <-. apply POST_refl; exact HP.
  - (* guard *)
    apply andb_prop in Ha as [Ha1 Ha2]. cbn [guard_make] in Hx. set (l := gs_next st) in *. set (clo := mk_clo l p1 env) in *.
    set (st1 := mk_gs _ (l + 1) _) in *. destruct HP as [HP1 HP2].
    assert (A1 : about l (gs_log st1) = [EvMake l k]).
    { unfold st1; cbn. rewrite N.eqb_refl. destruct (HP2 l ltac:(unfold l; lia)) as [_ H]. unfold about in H. rewrite H. reflexivity. }
    assert (P1 : PRE st1).
    { split.
      - intros j c. unfold st1; cbn. destruct (N.eqb_spec j l); [intros [= <-]; subst; reflexivity|apply HP1].
      - intros j Hj. unfold st1 in *; cbn in *. destruct (HP2 j ltac:(unfold l in *; lia)) as [H1 H2]. destruct (N.eqb_spec j l); [lia|].
        split; [exact H1|]. destruct (N.eqb_spec l j); [lia|exact H2]. }
    assert (B1 : bounded ((x, l) :: env) st1).
    { intros y j. cbn [genv_at]. unfold st1; cbn. destruct (x =? y); [intros [= <-]; lia|]. intros H. specialize (HB y j H). unfold l. lia. }
    assert (S01 : forall j, j < l -> same j st st1).
    { intros j Hj. unfold st1, same; cbn. destruct (N.eqb_spec j l); [lia|]. split; [reflexivity|]. destruct (N.eqb_spec l j); [lia|reflexivity]. }
    destruct (exec fuel unc ((x, l) :: env) p2 st1) as [r1 st2] eqn:E2.
    pose proof (IH _ _ _ _ _ _ Ha2 P1 B1 E2) as (P2 & N2 & O2 & W2).
    assert (N1 : gs_next st1 = l + 1) by reflexivity.
    (* from st to st2, for guards other than l *)
    assert (O02 : forall j, j < gs_next st -> same j st st2 \/ released_now env j st st2).
    { intros j Hj. fold l in Hj. destruct (S01 j Hj) as [S1 S2]. destruct (O2 j ltac:(lia)) as [[C1 C2]|((y & Hy) & C & D1 & D2)].
      - left. split; congruence.
      - right. split; [|split; [rewrite <- S1; exact C|split; [exact D1|congruence]]]. cbn [genv_at] in Hy. destruct (x =? y); [injection Hy as <-; lia|eauto]. }
    (* guard l itself in st2 *)
    assert (L2 : (gs_cell st2 l = Fn (Some clo) /\ about l (gs_log st2) = [EvMake l k]) \/
                 (gs_cell st2 l = Fn None /\ about l (gs_log st2) = [EvRelease l; EvMake l k])).
    { destruct (O2 l ltac:(lia)) as [[C1 C2]|(_ & _ & D1 & D2)].
      - left. rewrite C1, C2, A1. unfold st1; cbn. rewrite N.eqb_refl. auto.
      - right. rewrite D1, D2, A1. auto. }
    (* the end of l's lifetime without running its function *)
    assert (KILL : forall h, leaves r1 = true -> about l (gs_log st2) = h -> once l r1 h -> POST env st (gs_set l Dead st2) r1).
    { intros h L1 Hh Ho. split; [|split; [cbn; unfold l in *; lia|split]].
      - destruct P2 as [Q1 Q2]. split; cbn; intros j.
        + intros c. destruct (j =? l); [discriminate|apply Q1].
        + intros Hj. destruct (j =? l); [|apply Q2; exact Hj]. split; [reflexivity|]. apply Q2; exact Hj.
      - intros j Hj. destruct (N.eqb_spec j l); [unfold l in *; lia|]. apply N.eqb_neq in n.
        destruct (O02 j Hj) as [[C1 C2]|(X & C & D1 & D2)]; [left|right].
        + split; [cbn; rewrite n; exact C1|exact C2].
        + split; [exact X|]. split; [exact C|]. split; [cbn; rewrite n; exact D1|exact D2].
      - cbn [gs_next gs_set gs_log gs_cell]. intros j Hj. destruct (N.eqb_spec j l); [subst j; rewrite Hh; split; [exact Ho|reflexivity]|].
        apply W2. unfold l in *. lia. }
    destruct (leaves r1) eqn:L1.
    2:{ injection Hx as <- <-. split; [exact P2|]. split; [unfold l in *; lia|]. split; [exact O02|]. intros j Hj.
        destruct (N.eq_dec j l) as [->|].
        - split; [|congruence]. destruct L2 as [[_ ->]|[_ ->]]; exists k; [left|right; right]; auto. split; [reflexivity|congruence].
        - destruct (W2 j ltac:(unfold l in *; lia)) as [H1 H2]. split; [exact H1|congruence]. }
    destruct L2 as [[C2 H2]|[C2 H2]]; rewrite C2 in Hx.
    2:{ injection Hx as <- <-. eapply KILL; [reflexivity|exact H2|]. exists k. auto. }
    destruct (check_condition k _) eqn:CC.
    2:{ injection Hx as <- <-. eapply KILL; [reflexivity|exact H2|]. exists k. left. split; [reflexivity|]. intros _ ->. discriminate. }
    set (unc' := match r1 with RThrown _ => unc + 1 | _ => unc end) in *.
    unfold clo in Hx; cbn [cl_id cl_body cl_env] in Hx. set (st2' := gs_event (EvRun l) st2) in *.
    assert (Q2 : PRE st2').
    { destruct P2 as [Q1 Q2]. split; [exact Q1|]. intros j Hj. unfold st2' in *; cbn in *. destruct (Q2 j Hj) as [R1 R2]. split; [exact R1|].
      destruct (N.eqb_spec l j); [lia|exact R2]. }
    assert (B2 : bounded env st2').
    { intros y j Hy. specialize (HB y j Hy). unfold st2'; cbn. unfold l in *. lia. }
    destruct (exec fuel unc' env p1 st2') as [r2 st3] eqn:E3.
    pose proof (IH _ _ _ _ _ _ Ha1 Q2 B2 E3) as (P3 & N3 & O3 & W3). unfold st2' in N3; cbn [gs_next gs_event] in N3.
    assert (S22 : forall j, j <> l -> same j st2 st2').
    { intros j Hj. split; [reflexivity|]. unfold st2'; cbn. destruct (N.eqb_spec l j); [congruence|reflexivity]. }
    assert (L3 : gs_cell st3 l = Fn (Some clo) /\ about l (gs_log st3) = [EvRun l; EvMake l k]).
    { destruct (O3 l ltac:(unfold st2'; cbn; lia)) as [[C3 H3]|((y & Hy) & _)]; [|specialize (HB y l Hy); unfold l in *; lia].
      rewrite C3, H3. unfold st2'; cbn. rewrite N.eqb_refl. unfold about in H2. rewrite H2. auto. }
    assert (O03 : forall j, j < gs_next st -> same j st st3 \/ released_now env j st st3).
    { intros j Hj. assert (Hne : j <> l) by (unfold l; lia). destruct (S22 j Hne) as [T1 T2].
      destruct (O02 j Hj) as [[U1 U2]|(X & C & D1 & D2)]; destruct (O3 j ltac:(unfold st2', l in *; cbn; lia)) as [[V1 V2]|(X' & C' & D3 & D4)].
      - left. split; congruence.
      - right. split; [exact X'|]. split; [rewrite <- U1, <- T1; exact C'|]. split; congruence.
      - right. split; [exact X|]. split; [exact C|]. split; congruence.
      - exfalso. destruct C' as [c C']. congruence. }
    assert (W03 : forall j, gs_next st <= j < gs_next st3 -> j <> l -> once j r2 (about j (gs_log st3)) /\ (leaves r2 = true -> gs_cell st3 j = Dead)).
    { intros j Hj Hne. destruct (N.lt_ge_cases j (gs_next st2)) as [Hj2|Hj2].
      - destruct (W2 j ltac:(unfold l in *; lia)) as [H1 D1]. specialize (D1 eq_refl). destruct (S22 j Hne) as [T1 T2].
        destruct (O3 j ltac:(unfold st2'; cbn; lia)) as [[V1 V2]|(X & [c C] & _)]; [|congruence].
        split; [|intros _; congruence]. rewrite V2, T2. destruct H1 as [k' H1]. exists k'. destruct H1 as [[H1 K]|H1]; [|tauto]. left. split; [exact H1|]. intros _. apply K. exact L1.
      - apply W3. unfold st2'; cbn. lia. }
    assert (ST : forall r3, leaves r3 = false -> POST env st st3 r3 \/ leaves r2 = true).
    { intros r3 L3'. destruct (leaves r2) eqn:Lr2; [right; reflexivity|left].
      split; [exact P3|]. split; [unfold l in *; lia|]. split; [exact O03|]. intros j Hj. destruct (N.eq_dec j l) as [->|Hne].
      - split; [|congruence]. destruct L3 as [_ ->]. exists k. auto.
      - destruct (W03 j Hj Hne) as [[k' H1] D]. split; [|congruence]. exists k'. rewrite L3'. rewrite Lr2 in H1. exact H1. }
    assert (DN : leaves r2 = true -> POST env st (gs_set l Dead st3) r1).
    { intros Lr2. split; [|split; [cbn; unfold l in *; lia|split]].
      - destruct P3 as [R1 R2]. split; cbn; intros j.
        + intros c. destruct (j =? l); [discriminate|apply R1].
        + intros Hj. destruct (j =? l); [|apply R2; exact Hj]. split; [reflexivity|]. apply R2; exact Hj.
      - intros j Hj. assert (n : (j =? l) = false) by (apply N.eqb_neq; unfold l; lia).
        destruct (O03 j Hj) as [[C1 C3]|(X & C & D1 & D2)]; [left|right].
        + split; [cbn; rewrite n; exact C1|exact C3].
        + split; [exact X|]. split; [exact C|]. split; [cbn; rewrite n; exact D1|exact D2].
      - cbn [gs_next gs_set gs_log gs_cell]. intros j Hj. destruct (N.eqb_spec j l) as [->|Hne].
        + destruct L3 as [_ ->]. split; [exists k; auto|reflexivity].
        + destruct (W03 j Hj Hne) as [[k' H1] D]. specialize (D Lr2). split; [|intros _; exact D]. exists k'. rewrite L1. rewrite Lr2 in H1. exact H1. }
    destruct r2; cbn [leaves] in *; injection Hx as <- <-; try (apply DN; reflexivity);
      try (match goal with |- POST _ _ _ ?r => destruct (ST r eq_refl) as [T|T]; [exact T|discriminate T] end).
    (* the function threw *)
    split; [exact P3|]. split; [unfold l in *; lia|]. split; [exact O03|]. intros j Hj. split; [|discriminate]. destruct (N.eq_dec j l) as [->|Hne].
    + destruct L3 as [_ ->]. exists k. auto.
    + destruct (W03 j Hj Hne) as [[k' H1] D]. exists k'. destruct H1 as [[H1 _]|H1]; [left; split; [exact H1|discriminate]|tauto].
  - (* release *)
    destruct (genv_at x env) as [l|] eqn:El; [|injection Hx as <- <-; apply POST_refl; exact HP].
    destruct (gs_cell st l) as [|f] eqn:C; [injection Hx as <- <-; apply POST_refl; exact HP|].
    unfold guard_release in Hx. rewrite C in Hx. destruct f as [c|]; [|eapply IH; eauto].
    pose proof (HB x l El) as Hl. destruct HP as [HP1 HP2]. pose proof (HP1 l c C) as Hid. rewrite Hid in Hx.
    set (st1 := gs_set l (Fn None) (gs_event (EvRelease l) st)) in *.
    assert (P1 : POST env st st1 RNormal).
    { split; [|split; [cbn; lia|split]].
      - split; cbn; intros j.
        + intros d. destruct (j =? l); [discriminate|apply HP1].
        + intros Hj. destruct (HP2 j Hj) as [H1 H2]. destruct (N.eqb_spec j l); [lia|]. split; [exact H1|]. destruct (N.eqb_spec l j); [lia|exact H2].
      - intros j Hj. destruct (N.eqb_spec j l) as [->|Hne].
        + right. split; [eauto|]. split; [eauto|]. unfold st1; cbn. rewrite N.eqb_refl. auto.
        + left. unfold st1, same; cbn. destruct (N.eqb_spec j l); [congruence|]. destruct (N.eqb_spec l j); [congruence|auto].
      - cbn. intros; lia. }
    eapply POST_trans; [|exact P1|]; [reflexivity|]. eapply IH; eauto. apply P1.
  - discriminate.
  - (* block *)
    apply andb_prop in Ha as [Ha1 Ha2]. destruct (exec fuel unc env p1 st) as [r1 st1] eqn:E1.
    pose proof (IH _ _ _ _ _ _ Ha1 HP HB E1) as P1.
    destruct r1; try (injection Hx as <- <-; exact P1).
    eapply POST_trans; [|exact P1|]; [reflexivity|]. eapply IH; [exact Ha2|apply P1|eapply bounded_post; eauto|exact Hx].
  - (* try *)
    apply andb_prop in Ha as [Ha Ha3]. apply andb_prop in Ha as [Ha1 Ha2]. destruct (exec fuel unc env p1 st) as [r1 st1] eqn:E1.
    pose proof (IH _ _ _ _ _ _ Ha1 HP HB E1) as P1.
    destruct r1; try (injection Hx as <- <-; exact P1).
    + eapply POST_trans; [|exact P1|]; [reflexivity|]. eapply IH; [exact Ha3|apply P1|eapply bounded_post; eauto|exact Hx].
    + destruct (exec fuel unc env p2 st1) as [r2 st2] eqn:E2.
      pose proof (IH _ _ _ _ _ _ Ha2 (proj1 P1) (bounded_post _ _ _ _ HB P1) E2) as P2.
      assert (P12 : POST env st st2 r2) by (eapply POST_trans; [|exact P1|exact P2]; reflexivity).
      destruct r2; try (injection Hx as <- <-; exact P12).
      eapply POST_trans; [|exact P12|]; [reflexivity|]. eapply IH; [exact Ha3|apply P12|eapply bounded_post; eauto|exact Hx].
  - (* call *)
    apply andb_prop in Ha as [Ha1 Ha2]. destruct (exec fuel unc env p1 st) as [r1 st1] eqn:E1.
    pose proof (IH _ _ _ _ _ _ Ha1 HP HB E1) as P1.
    destruct r1; try (injection Hx as <- <-; exact P1);
    (eapply POST_trans; [|exact P1|]; [reflexivity|]; eapply IH; [exact Ha2|apply P1|eapply bounded_post; eauto|exact Hx]).
Qed.

Lemma about_rev : forall id l, about id (rev l) = rev (about id l).
Proof.
  intros id l. unfold about. induction l as [|e l IH]; cbn [rev filter]; [reflexivity|].
  rewrite filter_app, IH. cbn [filter]. destruct (match e with EvStep _ => false | _ => _ end); cbn [rev]; [reflexivity|apply app_nil_r].
Qed.

Lemma guard_history : forall p fuel r log id, assign_free p = true -> run_guards fuel p = (r, log) ->
  about id log = [] \/ exists k,
    (about id log = [EvMake id k] /\ (leaves r = true -> k <> KExit)) \/
    about id log = [EvMake id k; EvRun id] \/ about id log = [EvMake id k; EvRelease id].
Proof.
  intros p fuel r log id Ha H. unfold run_guards in H. destruct (exec fuel 0 [] p gs_init) as [r' st] eqn:E. injection H as <- <-.
  assert (P0 : PRE gs_init) by (split; [discriminate|auto]).
  destruct (counting fuel p 0 [] gs_init r' st Ha P0 ltac:(intros x l; discriminate) E) as ((_ & Z) & _ & _ & W).
  rewrite about_rev. destruct (N.lt_ge_cases id (gs_next st)) as [Hl|Hl].
  - right. destruct (W id ltac:(cbn; lia)) as [[k H] _]. exists k. destruct H as [[-> K]|[->| ->]]; cbn; auto.
  - left. destruct (Z id Hl) as [_ ->]. reflexivity.
Qed.
