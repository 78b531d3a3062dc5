(** Proofs about transactions with scope guards. *)
From Coq Require Import List Lia NArith. Import ListNotations.
From Verif Require Import Base Scope_Model Core_Spec Rollback_Spec.
Local Open Scope N_scope.

(** Steps in a state, oldest first. *)
Definition done (st : gstate) : list N := steps (rev (gs_log st)).
Lemma steps_app a b : steps (a ++ b) = steps a ++ steps b.
Proof. unfold steps. apply flat_map_app. Qed.
Lemma done_event ev st : done (gs_event ev st) = done st ++ steps [ev].
Proof. unfold done. cbn [gs_event gs_log rev]. apply steps_app. Qed.
(** Guards that existed before are as they were. *)
Definition keeps (st st' : gstate) : Prop := gs_next st <= gs_next st' /\ forall l, l < gs_next st -> gs_cell st' l = gs_cell st l.

Definition rolled_back (unc : N) (e : ending) : bool := negb (succeeds e) || (0 <? unc).
Definition uncaught (unc : N) (e : ending) : N := match e with Throws _ => unc + 1 | _ => unc end.
Lemma end_exec fuel unc env e st : exec (S fuel) unc env (end_of e) st = (end_result e, st).
Proof. destruct e; reflexivity. Qed.
Lemma end_leaves e : leaves (end_result e) = true.
Proof. destruct e; reflexivity. Qed.
Lemma end_unc unc e : match end_result e with RThrown _ => unc + 1 | _ => unc end = uncaught unc e.
Proof. destruct e; reflexivity. Qed.
Lemma psize_pos p : (1 <= psize p)%nat.
Proof. destruct p; cbn [psize]; lia. Qed.
Lemma psize_end e : psize (end_of e) = 1%nat.
Proof. destruct e; reflexivity. Qed.

Lemma fail_exec : forall acts g e fuel unc env st, (psize (fail_guarded g acts e) <= fuel)%nat ->
  exists st', exec fuel unc env (fail_guarded g acts e) st = (end_result e, st') /\ keeps st st' /\
    done st' = done st ++ map fst acts ++ (if rolled_back unc e then rev (map snd acts) else []).
Proof.
  induction acts as [|[d u] acts IH]; intros g e fuel unc env st HF.
  - cbn [fail_guarded] in *. rewrite psize_end in HF. destruct fuel as [|fuel]; [lia|]. rewrite end_exec. exists st. split; [reflexivity|].
    split; [split; [lia|reflexivity]|]. cbn [map rev app]. destruct (rolled_back unc e); now rewrite app_nil_r.
  - cbn [fail_guarded psize] in *. destruct fuel as [|fuel]; [lia|]. cbn [exec]. destruct fuel as [|fuel]; [lia|]. cbn [exec guard_make].
    set (l := gs_next (gs_event (EvStep d) st)).
    match goal with |- context [exec fuel unc ((g, l) :: env) _ ?x] => set (st1 := x) end.
    destruct (IH (g + 1) e fuel unc ((g, l) :: env) st1) as (st2 & -> & (K1 & K2) & D); [lia|].
    rewrite end_leaves, end_unc.
    assert (C : gs_cell st2 l = Fn (Some (mk_clo l (PEvent u PDone) env))).
    { rewrite K2 by (unfold st1; cbn [gs_next]; lia). unfold st1. cbn [gs_cell]. now rewrite N.eqb_refl. }
    assert (D1 : done st1 = done st ++ [d]).
    { unfold st1, done. cbn [gs_log gs_event rev]. rewrite !steps_app. change (steps [EvMake l KFail]) with (@nil N). rewrite app_nil_r. reflexivity. }
    assert (L : l = gs_next st) by reflexivity.
    assert (N1 : gs_next st1 = gs_next st + 1) by reflexivity.
    assert (C1 : forall i, i < gs_next st -> gs_cell st1 i = gs_cell st i).
    { intros i Hi. unfold st1. cbn [gs_cell]. rewrite (proj2 (N.eqb_neq i l)) by lia. reflexivity. }
    rewrite C. cbn [check_condition cl_env cl_body cl_id].
    assert (RB : (0 <? uncaught unc e) = rolled_back unc e).
    { unfold rolled_back, uncaught. destruct e; cbn [succeeds negb orb]; try reflexivity. apply N.ltb_lt. lia. }
    rewrite RB. destruct (rolled_back unc e).
    + destruct fuel as [|fuel]; [lia|]. cbn [exec]. destruct fuel as [|fuel]; [lia|]. cbn [exec].
      eexists. split; [reflexivity|]. split.
      * split; [cbn [gs_next gs_set gs_event]; lia|]. intros i Hi. cbn [gs_cell gs_set gs_event].
        rewrite (proj2 (N.eqb_neq i l)) by lia. rewrite K2 by lia. now apply C1.
      * unfold done at 1. cbn [gs_set gs_log gs_event rev]. rewrite !steps_app. change (steps (rev (gs_log st2))) with (done st2).
        change (steps [EvRun l]) with (@nil N). change (steps [EvStep u]) with [u]. rewrite D, D1, app_nil_r. cbn [map rev fst snd].
        rewrite <- !app_assoc. reflexivity.
    + eexists. split; [reflexivity|]. split.
      * split; [cbn [gs_next gs_set]; lia|]. intros i Hi. cbn [gs_cell gs_set]. rewrite (proj2 (N.eqb_neq i l)) by lia. rewrite K2 by lia. now apply C1.
      * change (done (gs_set l Dead st2)) with (done st2). rewrite D, D1. cbn [map fst]. rewrite <- !app_assoc. reflexivity.
Qed.

(** ** Guards that are released at the end *)
(** The guards named from [g] on are the objects [ls], and live. *)
Fixpoint named (env : genv) (st : gstate) (g : N) (ls : list N) : Prop :=
  match ls with
  | [] => True
  | l :: r => genv_at g env = Some l /\ gs_cell st l <> Dead /\ named env st (g + 1) r
  end.
Lemma release_exec : forall ls g fuel unc env st e, (length ls < fuel)%nat -> named env st g ls ->
  exists st', exec fuel unc env (release_from g (length ls) (end_of e)) st = (end_result e, st') /\
    gs_next st' = gs_next st /\ done st' = done st /\ (forall l, In l ls -> gs_cell st' l = Fn None) /\
    (forall l, ~ In l ls -> gs_cell st' l = gs_cell st l).
Proof.
  induction ls as [|l ls IH]; intros g fuel unc env st e HF NM.
  - cbn [length release_from]. destruct fuel as [|fuel]; [cbn in HF; lia|]. rewrite end_exec. exists st. split; [reflexivity|]. split; [reflexivity|]. split; [reflexivity|]. split; [intros l []|reflexivity].
  - cbn [length release_from] in *. destruct fuel as [|fuel]; [lia|]. cbn [exec]. destruct NM as (G & A & R). rewrite G.
    destruct (gs_cell st l) as [|f] eqn:C; [congruence|].
    assert (X : let st1 := guard_release l st in gs_next st1 = gs_next st /\ done st1 = done st /\ gs_cell st1 l = Fn None /\
                (forall i, i <> l -> gs_cell st1 i = gs_cell st i)).
    { unfold guard_release. rewrite C. destruct f as [c|]; cbv zeta.
      - split; [reflexivity|]. split.
        + unfold done. cbn [gs_set gs_event gs_log rev]. rewrite steps_app. apply app_nil_r.
        + cbn [gs_set gs_event gs_cell]. rewrite N.eqb_refl. split; [reflexivity|]. intros i Hi. now rewrite (proj2 (N.eqb_neq i l)).
      - repeat split; try reflexivity. exact C. }
    cbv zeta in X. destruct X as (X1 & X2 & X3 & X4).
    destruct (IH (g + 1) fuel unc env (guard_release l st) e) as (st' & E & N' & D & I & O); [lia| |].
    { clear - R X3 X4. revert g R. induction ls as [|m ls IH]; intros g R; [exact Logic.I|]. cbn [named] in *. destruct R as (R1 & R2 & R3).
      split; [exact R1|]. split; [|now apply IH]. destruct (N.eq_dec m l) as [->|NE]; [rewrite X3; discriminate|now rewrite X4]. }
    exists st'. split; [exact E|]. split; [congruence|]. split; [congruence|]. split.
    + intros i [<-|J]; [|now apply I]. destruct (in_dec N.eq_dec l ls) as [J|J]; [now apply I|]. rewrite O by exact J. exact X3.
    + intros i J. cbn [In] in J. rewrite O by tauto. apply X4. intros ->. tauto.
Qed.

Lemma named_app env st g ls l : named env st g (ls ++ [l]) <-> named env st g ls /\ genv_at (g + N.of_nat (length ls)) env = Some l /\ gs_cell st l <> Dead.
Proof.
  revert g. induction ls as [|m ls IH]; intros g; cbn [app named length].
  - rewrite N.add_0_r. tauto.
  - rewrite IH. replace (g + 1 + N.of_nat (length ls)) with (g + N.of_nat (S (length ls))) by lia. tauto.
Qed.
(** One more guard of a new name. *)
Lemma named_more env st st' g ls x l : g + N.of_nat (length ls) <= x -> (forall i, In i ls -> gs_cell st' i = gs_cell st i) ->
  named env st g ls -> named ((x, l) :: env) st' g ls.
Proof.
  revert g. induction ls as [|m ls IH]; intros g LE K NM; [exact Logic.I|]. cbn [named length] in *. destruct NM as (A & B & C).
  split; [cbn [genv_at]; rewrite (proj2 (N.eqb_neq x g)) by lia; exact A|]. split; [rewrite K by (now left); exact B|].
  apply IH; [lia|intros i I; apply K; now right|exact C].
Qed.

Definition last_of (e : ending) (n : nat) : prog := if succeeds e then release_from 0 n (end_of e) else end_of e.
Lemma psize_release n : forall g p, psize (release_from g n p) = (n + psize p)%nat.
Proof. induction n as [|n IH]; intros g p; [reflexivity|]. cbn [release_from psize]. rewrite IH. lia. Qed.
Lemma psize_exit acts : forall g p, (length acts + psize p <= psize (exit_guarded_from g acts p))%nat.
Proof. induction acts as [|[d u] acts IH]; intros g p; cbn [exit_guarded_from psize length]; [lia|]. pose proof (IH (g + 1) p). lia. Qed.

Lemma exit_exec : forall acts ls e fuel unc env st,
  let p := exit_guarded_from (N.of_nat (length ls)) acts (last_of e (length ls + length acts)) in
  (psize p <= fuel)%nat -> named env st 0 ls -> (forall l, In l ls -> l < gs_next st) ->
  exists st', exec fuel unc env p st = (end_result e, st') /\ gs_next st <= gs_next st' /\
    (forall l, l < gs_next st -> gs_cell st' l = if succeeds e && existsb (N.eqb l) ls then Fn None else gs_cell st l) /\
    done st' = done st ++ map fst acts ++ (if succeeds e then [] else rev (map snd acts)).
Proof.
  induction acts as [|[d u] acts IH]; intros ls e fuel unc env st p HF NM LT; subst p.
  - cbn [exit_guarded_from length map rev app] in *. rewrite Nat.add_0_r in *. unfold last_of in *. destruct (succeeds e) eqn:SE.
    + destruct (release_exec ls 0 fuel unc env st e) as (st' & E & N' & D & I & O); [|exact NM|].
      { rewrite psize_release, psize_end in HF. lia. }
      exists st'. split; [exact E|]. split; [lia|]. split; [|now rewrite app_nil_r]. intros l Hl. cbn [andb].
      destruct (existsb (N.eqb l) ls) eqn:X.
      * apply existsb_exists in X. destruct X as (m & M & Q). apply N.eqb_eq in Q. subst m. now apply I.
      * apply O. intros J. assert (existsb (N.eqb l) ls = true) by (apply existsb_exists; exists l; split; [exact J|apply N.eqb_refl]). congruence.
    + rewrite psize_end in HF. destruct fuel as [|fuel]; [lia|]. rewrite end_exec. exists st. split; [reflexivity|]. split; [lia|].
      split; [reflexivity|now rewrite app_nil_r].
  - cbn [exit_guarded_from psize length] in *. destruct fuel as [|fuel]; [lia|]. cbn [exec]. destruct fuel as [|fuel]; [lia|]. cbn [exec guard_make].
    set (l := gs_next (gs_event (EvStep d) st)).
    match goal with |- context [exec fuel unc ((?g, l) :: env) _ ?x] => set (st1 := x) end.
    assert (L : l = gs_next st) by reflexivity.
    assert (N1 : gs_next st1 = gs_next st + 1) by reflexivity.
    assert (C1 : forall i, i < gs_next st -> gs_cell st1 i = gs_cell st i).
    { intros i Hi. unfold st1. cbn [gs_cell]. rewrite (proj2 (N.eqb_neq i l)) by lia. reflexivity. }
    assert (CL : gs_cell st1 l = Fn (Some (mk_clo l (PEvent u PDone) env))) by (unfold st1; cbn [gs_cell]; now rewrite N.eqb_refl).
    assert (D1 : done st1 = done st ++ [d]).
    { unfold st1, done. cbn [gs_log gs_event rev]. rewrite !steps_app. change (steps [EvMake l KExit]) with (@nil N). rewrite app_nil_r. reflexivity. }
    assert (LE : length (ls ++ [l]) = S (length ls)) by (rewrite app_length; cbn; lia).
    destruct (IH (ls ++ [l]) e fuel unc ((N.of_nat (length ls), l) :: env) st1) as (st2 & E & K1 & K2 & D).
    { rewrite LE. replace (S (length ls) + length acts)%nat with (length ls + S (length acts))%nat by lia.
      replace (N.of_nat (S (length ls))) with (N.of_nat (length ls) + 1) by lia. lia. }
    { apply named_app. rewrite N.add_0_l. split; [|split].
      - apply (named_more env st); [lia|intros i I; apply C1, LT, I|exact NM].
      - cbn [genv_at]. now rewrite N.eqb_refl.
      - rewrite CL. discriminate. }
    { intros i I. rewrite N1. apply in_app_or in I. destruct I as [I|[<-|[]]]; [apply LT in I|]; lia. }
    rewrite LE in E. replace (S (length ls) + length acts)%nat with (length ls + S (length acts))%nat in E by lia.
    replace (N.of_nat (S (length ls))) with (N.of_nat (length ls) + 1) in E by lia. rewrite E.
    rewrite end_leaves, end_unc.
    assert (CE : gs_cell st2 l = if succeeds e then Fn None else Fn (Some (mk_clo l (PEvent u PDone) env))).
    { rewrite K2 by lia. rewrite existsb_app. cbn [existsb]. rewrite N.eqb_refl. cbn [orb]. rewrite orb_true_r, andb_true_r, CL. reflexivity. }
    assert (OLD : forall i, i < gs_next st -> gs_cell st2 i = if succeeds e && existsb (N.eqb i) ls then Fn None else gs_cell st i).
    { intros i Hi. rewrite K2 by lia. rewrite existsb_app. cbn [existsb]. rewrite (proj2 (N.eqb_neq i l)) by lia. rewrite !orb_false_r. now rewrite C1. }
    rewrite CE. destruct (succeeds e).
    + eexists. split; [reflexivity|]. split; [cbn [gs_next gs_set]; lia|]. split.
      * intros i Hi. cbn [gs_cell gs_set]. rewrite (proj2 (N.eqb_neq i l)) by lia. now apply OLD.
      * change (done (gs_set l Dead st2)) with (done st2). rewrite D, D1. cbn [map fst]. rewrite <- !app_assoc. reflexivity.
    + cbn [check_condition cl_env cl_body cl_id]. destruct fuel as [|fuel]; [lia|]. cbn [exec]. destruct fuel as [|fuel]; [lia|]. cbn [exec].
      eexists. split; [reflexivity|]. split; [cbn [gs_next gs_set gs_event]; lia|]. split.
      * intros i Hi. cbn [gs_cell gs_set gs_event]. rewrite (proj2 (N.eqb_neq i l)) by lia. now apply OLD.
      * unfold done at 1. cbn [gs_set gs_log gs_event rev]. rewrite !steps_app. change (steps (rev (gs_log st2))) with (done st2).
        change (steps [EvRun l]) with (@nil N). change (steps [EvStep u]) with [u]. rewrite D, D1, app_nil_r. cbn [map rev fst snd].
        rewrite <- !app_assoc. reflexivity.
Qed.

(** ** Either kind *)
Definition tx_steps (rb : bool) (acts : list action) : list N := map fst acts ++ (if rb then rev (map snd acts) else []).
Lemma fail_tx acts e fuel unc env st : (psize (fail_guarded 0 acts e) <= fuel)%nat ->
  exists st', exec fuel unc env (fail_guarded 0 acts e) st = (end_result e, st') /\ keeps st st' /\
    done st' = done st ++ tx_steps (rolled_back unc e) acts.
Proof. exact (fail_exec acts 0 e fuel unc env st). Qed.
Lemma exit_tx acts e fuel unc env st : (psize (exit_guarded acts e) <= fuel)%nat ->
  exists st', exec fuel unc env (exit_guarded acts e) st = (end_result e, st') /\ keeps st st' /\
    done st' = done st ++ tx_steps (negb (succeeds e)) acts.
Proof.
  intros HF. destruct (exit_exec acts [] e fuel unc env st) as (st' & E & K1 & K2 & D); [exact HF|exact Logic.I|intros l []|].
  exists st'. split; [exact E|]. split.
  - split; [exact K1|]. intros l Hl. rewrite (K2 l Hl). cbn [existsb]. now rewrite andb_false_r.
  - rewrite D. unfold tx_steps. destruct (succeeds e); reflexivity.
Qed.

Lemma session_exec tx (H : forall acts e fuel env st, (psize (tx acts e) <= fuel)%nat ->
    exists st', exec fuel 0 env (tx acts e) st = (end_result e, st') /\ keeps st st' /\ done st' = done st ++ tx_steps (negb (succeeds e)) acts) :
  forall txs fuel st, (psize (session tx txs) <= fuel)%nat ->
  exists st', exec fuel 0 [] (session tx txs) st = (RNormal, st') /\
    done st' = done st ++ flat_map (fun t => tx_steps (negb (succeeds (snd t))) (fst t)) txs.
Proof.
  induction txs as [|[acts e] txs IH]; intros fuel st HF.
  - cbn [session psize flat_map] in *. destruct fuel as [|fuel]; [lia|]. exists st. split; [reflexivity|now rewrite app_nil_r].
  - cbn [session psize flat_map fst snd] in *. destruct fuel as [|fuel]; [lia|]. cbn [exec]. destruct fuel as [|fuel]; [lia|]. 
    pose proof (psize_pos (session tx txs)) as PP.
    destruct (H acts e fuel [] st) as (st1 & E1 & _ & D1); [lia|].
    assert (C : exec (S fuel) 0 [] (PCall (tx acts e) PDone) st = (match e with Throws n => RThrown n | _ => RNormal end, st1)).
    { cbn [exec]. rewrite E1. destruct fuel as [|fuel']; [lia|]. destruct e; reflexivity. }
    rewrite C. destruct (IH (S fuel) st1) as (st2 & E2 & D2); [lia|]. exists st2. split.
    + destruct e; cbn [end_result]; exact E2.
    + rewrite D2, D1, <- app_assoc. reflexivity.
Qed.

Section State.
Context {T : Type} (act : N -> T -> T).
Lemma after_app a b s : after act (a ++ b) s = after act b (after act a s).
Proof. apply fold_left_app. Qed.
Lemma undone acts : undoable act acts -> forall s, after act (map fst acts ++ rev (map snd acts)) s = s.
Proof.
  induction 1 as [|[d u] acts U _ IH]; intros s; [reflexivity|]. cbn [map rev fst snd] in *.
  change (d :: map fst acts) with ([d] ++ map fst acts). rewrite <- app_assoc, after_app, app_assoc, after_app, IH. cbn. apply U.
Qed.
Lemma tx_after rb acts s : undoable act acts -> after act (tx_steps rb acts) s = if rb then s else after act (map fst acts) s.
Proof. intros U. unfold tx_steps. destruct rb; [now apply undone|now rewrite app_nil_r]. Qed.
Lemma txs_after txs : Forall (fun t => undoable act (fst t)) txs -> forall s,
  after act (flat_map (fun t => tx_steps (negb (succeeds (snd t))) (fst t)) txs) s = after act (committed txs) s.
Proof.
  unfold committed. induction 1 as [|[acts e] txs U _ IH]; intros s; [reflexivity|]. cbn [flat_map fst snd] in *. rewrite !after_app, tx_after by exact U.
  rewrite IH. destruct (succeeds e); reflexivity.
Qed.
End State.

Lemma run_session tx (H : forall acts e fuel env st, (psize (tx acts e) <= fuel)%nat ->
    exists st', exec fuel 0 env (tx acts e) st = (end_result e, st') /\ keeps st st' /\ done st' = done st ++ tx_steps (negb (succeeds e)) acts)
  {T : Type} (act : N -> T -> T) txs fuel s :
  (psize (session tx txs) <= fuel)%nat -> Forall (fun t => undoable act (fst t)) txs ->
  exists log, run_guards fuel (session tx txs) = (RNormal, log) /\ after act (steps log) s = after act (committed txs) s.
Proof.
  intros HF U. destruct (session_exec tx H txs fuel gs_init HF) as (st & E & D). unfold run_guards. rewrite E. eexists. split; [reflexivity|].
  change (steps (rev (gs_log st))) with (done st). rewrite D. change (done gs_init) with (@nil N). cbn [app]. now apply txs_after.
Qed.
Lemma fail_session {T : Type} (act : N -> T -> T) txs fuel s :
  (psize (session (fail_guarded 0) txs) <= fuel)%nat -> Forall (fun t => undoable act (fst t)) txs ->
  exists log, run_guards fuel (session (fail_guarded 0) txs) = (RNormal, log) /\ after act (steps log) s = after act (committed txs) s.
Proof.
  apply run_session. intros acts e f env st HF. destruct (fail_tx acts e f 0 env st HF) as (st' & E & K & D). exists st'. split; [exact E|]. split; [exact K|].
  rewrite D. unfold rolled_back. cbn. now rewrite orb_false_r.
Qed.
Lemma exit_session {T : Type} (act : N -> T -> T) txs fuel s :
  (psize (session exit_guarded txs) <= fuel)%nat -> Forall (fun t => undoable act (fst t)) txs ->
  exists log, run_guards fuel (session exit_guarded txs) = (RNormal, log) /\ after act (steps log) s = after act (committed txs) s.
Proof. apply run_session. intros acts e f env st HF. now apply exit_tx. Qed.

(** ** In a destructor during unwinding *)
Lemma unwinding_exec p rb acts e fuel (H : forall fuel unc env st, (psize p <= fuel)%nat -> unc = 1 ->
    exists st', exec fuel unc env p st = (end_result e, st') /\ keeps st st' /\ done st' = done st ++ tx_steps rb acts) :
  succeeds e = true -> (psize (while_unwinding p) <= fuel)%nat ->
  exists log, run_guards fuel (while_unwinding p) = (RNormal, log) /\ steps log = tx_steps rb acts.
Proof.
  intros SE HF. unfold while_unwinding in *. cbn [psize] in HF. unfold run_guards.
  destruct fuel as [|fuel]; [lia|]. cbn [exec]. destruct fuel as [|fuel]; [lia|]. cbn [exec guard_make]. destruct fuel as [|fuel]; [lia|].
  cbn [exec leaves gs_cell gs_init N.eqb gs_next check_condition cl_env cl_body cl_id].
  match goal with |- context [exec fuel (0 + 1) ?env p ?x] => set (st1 := x) end.
  destruct (H fuel (0 + 1) [] st1) as (st2 & -> & _ & D); [lia|reflexivity|].
  pose proof (psize_pos p). destruct fuel as [|fuel]; [lia|].
  assert (LOG : steps (rev (gs_log st2)) = tx_steps rb acts).
  { change (steps (rev (gs_log st2))) with (done st2). rewrite D. reflexivity. }
  destruct e; try discriminate SE; cbn [end_result exec]; eexists; (split; [reflexivity|exact LOG]).
Qed.
Lemma fail_unwinding acts e fuel : succeeds e = true -> (psize (while_unwinding (fail_guarded 0 acts e)) <= fuel)%nat ->
  exists log, run_guards fuel (while_unwinding (fail_guarded 0 acts e)) = (RNormal, log) /\ steps log = map fst acts ++ rev (map snd acts).
Proof.
  intros SE HF. apply (unwinding_exec (fail_guarded 0 acts e) true acts e fuel); [|exact SE|exact HF].
  intros f unc env st Hf ->. destruct (fail_tx acts e f 1 env st Hf) as (st' & E & K & D). exists st'. split; [exact E|]. split; [exact K|].
  rewrite D. unfold rolled_back. now rewrite orb_true_r.
Qed.
Lemma exit_unwinding acts e fuel : succeeds e = true -> (psize (while_unwinding (exit_guarded acts e)) <= fuel)%nat ->
  exists log, run_guards fuel (while_unwinding (exit_guarded acts e)) = (RNormal, log) /\ steps log = map fst acts.
Proof.
  intros SE HF. destruct (unwinding_exec (exit_guarded acts e) false acts e fuel) as (log & E & L); [|exact SE|exact HF|].
  - intros f unc env st Hf _. destruct (exit_tx acts e f unc env st Hf) as (st' & E & K & D). exists st'. split; [exact E|]. split; [exact K|].
    rewrite D, SE. reflexivity.
  - exists log. split; [exact E|]. rewrite L. unfold tx_steps. apply app_nil_r.
Qed.
Lemma fail_unwinding_state {T : Type} (act : N -> T -> T) acts e fuel s : succeeds e = true -> undoable act acts ->
  (psize (while_unwinding (fail_guarded 0 acts e)) <= fuel)%nat ->
  exists log, run_guards fuel (while_unwinding (fail_guarded 0 acts e)) = (RNormal, log) /\ after act (steps log) s = s.
Proof.
  intros SE U HF. destruct (fail_unwinding acts e fuel SE HF) as (log & E & L). exists log. split; [exact E|]. rewrite L. now apply undone.
Qed.
Lemma fail_unwinding_refuted : exists (act : N -> N -> N) acts e, succeeds e = true /\ undoable act acts /\ forall fuel s,
  (psize (while_unwinding (fail_guarded 0 acts e)) <= fuel)%nat ->
  exists log, run_guards fuel (while_unwinding (fail_guarded 0 acts e)) = (RNormal, log) /\ after act (steps log) s <> after act (map fst acts) s.
Proof.
  exists (fun n s => if n =? 1 then s + 1 else s - 1), [(1, 2)], Ends. split; [reflexivity|].
  assert (U : undoable (fun n s => if n =? 1 then s + 1 else s - 1) [(1, 2)]).
  { apply Forall_cons; [|constructor]. intros s. cbn [fst snd N.eqb Pos.eqb]. lia. }
  split; [exact U|]. intros fuel s HF.
  destruct (fail_unwinding_state _ [(1, 2)] Ends fuel s eq_refl U HF) as (log & E & L). exists log. split; [exact E|]. rewrite L.
  cbn [map fst after fold_left N.eqb Pos.eqb]. lia.
Qed.
