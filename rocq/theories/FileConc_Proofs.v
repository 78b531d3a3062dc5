From Coq Require Import List Lia. Import ListNotations.
From Verif Require Import Base BaseFacts Io_Model Io_Proofs File_Model File_Spec FileConc_Model FileConc_Spec.

(** * A call touches one file *)
Lemma path_same c : call_path c = path_of c.
Proof. destruct c; reflexivity. Qed.

Lemma call_step_elsewhere f c ph m f' r : call_step f c ph m = (f', r) ->
  forall q, (q <> path_of c \/ written c = None) -> f' q = f q.
Proof.
  intros E q Hq.
  assert (G : forall x, q <> path_of c -> fs_set f (call_path c) x q = f q).
  { intros x D. unfold fs_set. destruct c; cbn in D |- *; now rewrite (proj2 (N.eqb_neq _ _) D). }
  destruct ph, c; cbn [call_step call_path path_of written] in *;
    repeat match type of E with context [match ?x with _ => _ end] => destruct x end;
    injection E as <- <-; try reflexivity; (destruct Hq as [Hq|Hq]; [now apply G|discriminate]).
Qed.

Lemma call_step_local f g c ph m f' r : f (path_of c) = g (path_of c) -> call_step f c ph m = (f', r) ->
  exists g', call_step g c ph m = (g', r) /\ f' (path_of c) = g' (path_of c).
Proof.
  intros H E.
  assert (G : contents_of f (call_path c) = contents_of g (call_path c)) by (unfold contents_of; destruct c; cbn in H |- *; now rewrite H).
  assert (P : forall x (h k : fs), fs_set h (call_path c) x (path_of c) = fs_set k (call_path c) x (path_of c)).
  { intros. unfold fs_set. destruct c; cbn; now rewrite N.eqb_refl. }
  destruct ph, c; unfold call_step in *; cbn [call_path path_of] in *; rewrite <- ?G, <- ?H;
    repeat match type of E with context [match ?x with _ => _ end] => destruct x eqn:? end;
    injection E as <- <-; eexists; (split; [reflexivity|]); auto; congruence.
Qed.

(** * Turns of one thread only *)
Definition part (cs prog : list fcall) : Prop := exists d, prog = d ++ cs.
Lemma part_uses c cs prog : part (c :: cs) prog -> uses prog (path_of c).
Proof. intros [d ->]. exists c. split; [|reflexivity]. apply in_or_app. right. now left. Qed.
Lemma part_writes c cs prog d : part (c :: cs) prog -> written c = Some d -> writes prog (path_of c).
Proof. intros [e ->] W. exists c, d. split; [|auto]. apply in_or_app. right. now left. Qed.
Lemma part_tl c cs prog : part (c :: cs) prog -> part cs prog.
Proof. intros [d ->]. exists (d ++ [c]). now rewrite <- app_assoc. Qed.

Definition parts (st : fsystem) (progs : N -> list fcall) : Prop := forall j, part (ft_calls (fy_thread st j)) (progs j).

Lemma parts_step st progs im : parts st progs -> parts (fsystem_step st im) progs.
Proof.
  intros H j. destruct im as [i m]. unfold fsystem_step, fthread_step. cbn [fst snd]. pose proof (H i) as Hi.
  destruct (ft_calls (fy_thread st i)) as [|c cs] eqn:E.
  - cbn [fy_thread]. destruct (N.eqb_spec j i); [subst; rewrite E; exact Hi|apply H].
  - destruct (call_step _ _ _ _) as [f' [ph|a]]; cbn [fy_thread]; destruct (N.eqb_spec j i); try (subst; cbn [ft_calls]); try apply H.
    + exact Hi.
    + eapply part_tl; exact Hi.
Qed.

Lemma parts_start f progs : parts (fsystem_start f progs) progs.
Proof. intros j. now exists []. Qed.

Lemma as_alone_gen progs i : undisturbed progs i -> forall sched st st0,
  parts st progs -> fy_thread st i = fy_thread st0 i -> (forall p, uses (progs i) p -> fy_fs st p = fy_fs st0 p) ->
  let s := fsystem_run sched st in let s0 := fsystem_run (only i sched) st0 in
  fy_thread s i = fy_thread s0 i /\ (forall p, uses (progs i) p -> fy_fs s p = fy_fs s0 p).
Proof.
  intros U. induction sched as [|[k m] sched IH]; intros st st0 P T F; [split; assumption|].
  cbn [only filter fst]. unfold fsystem_run at 1. cbn [fold_left]. fold (fsystem_run sched (fsystem_step st (k, m))).
  pose proof (parts_step _ _ (k, m) P) as P'. destruct (N.eqb_spec k i) as [->|D].
  - unfold fsystem_run at 2. cbn [fold_left]. fold (fsystem_run (only i sched) (fsystem_step st0 (i, m))).
    assert (fy_thread (fsystem_step st (i, m)) i = fy_thread (fsystem_step st0 (i, m)) i /\
            forall p, uses (progs i) p -> fy_fs (fsystem_step st (i, m)) p = fy_fs (fsystem_step st0 (i, m)) p) as [A B].
    { specialize (P i). unfold fsystem_step, fthread_step. cbn [fst snd]. rewrite <- T.
      destruct (ft_calls (fy_thread st i)) as [|c cs]; [cbn; now rewrite N.eqb_refl|].
      destruct (call_step (fy_fs st) c _ m) as [f' r] eqn:E.
      destruct (call_step_local _ (fy_fs st0) _ _ _ _ _ (F _ (part_uses _ _ _ P)) E) as (g' & E' & L). rewrite E'.
      cbn [fy_thread fy_fs]. rewrite N.eqb_refl. split; [reflexivity|]. intros p Up.
      destruct (N.eq_dec p (path_of c)) as [->|Np]; [exact L|].
      rewrite (call_step_elsewhere _ _ _ _ _ _ E p (or_introl Np)), (call_step_elsewhere _ _ _ _ _ _ E' p (or_introl Np)). now apply F. }
    apply IH; assumption.
  - apply IH; [exact P'| |].
    + rewrite <- T. unfold fsystem_step. destruct (fthread_step _ _ _) as [f t]. cbn [fy_thread fst].
      rewrite (proj2 (N.eqb_neq _ _)); [reflexivity|congruence].
    + intros p Up. rewrite <- (F p Up). unfold fsystem_step, fthread_step. cbn [fst snd]. pose proof (P k) as Pk.
      destruct (ft_calls (fy_thread st k)) as [|c cs]; [reflexivity|].
      destruct (call_step (fy_fs st) c _ m) as [f' r] eqn:E. cbn [fy_fs].
      apply (call_step_elsewhere _ _ _ _ _ _ E). destruct (N.eq_dec p (path_of c)) as [->|Np]; [|now left].
      right. destruct (written c) as [d|] eqn:W; [|reflexivity]. destruct (U k _ D Up). eapply part_writes; eassumption.
Qed.

Lemma as_alone f progs i sched : undisturbed progs i ->
  let s := fsystem_run sched (fsystem_start f progs) in let s0 := fsystem_run (only i sched) (fsystem_start f progs) in
  answers s i = answers s0 i /\ (ended s i <-> ended s0 i) /\ (forall p, uses (progs i) p -> fy_fs s p = fy_fs s0 p).
Proof.
  intros U s s0. destruct (as_alone_gen _ _ U sched _ (fsystem_start f progs) (parts_start f progs) eq_refl (fun _ _ => eq_refl)) as [A B].
  unfold answers, ended. fold s in A, B. fold s0 in A, B. rewrite A. split; [reflexivity|]. split; [reflexivity|exact B].
Qed.

(** * One thread: as one call after the other *)
Definition same (f g : fs) : Prop := forall p, f p = g p.
Lemma one_call_same f g c : same f g -> snd (one_call f c) = snd (one_call g c) /\ same (fst (one_call f c)) (fst (one_call g c)).
Proof.
  intros H. destruct c; cbn [one_call fst snd]; rewrite ?(H p); (split; [reflexivity|]); try exact H;
    intros q; destruct (q =? p); auto.
Qed.
Lemma one_by_one_same cs : forall f g, same f g ->
  snd (one_by_one f cs) = snd (one_by_one g cs) /\ same (fst (one_by_one f cs)) (fst (one_by_one g cs)).
Proof.
  induction cs as [|c cs IH]; intros f g H; [split; [reflexivity|exact H]|]. cbn [one_by_one].
  pose proof (one_call_same _ _ c H) as [A B]. destruct (one_call f c) as [f1 a], (one_call g c) as [g1 a']. cbn [fst snd] in A, B. subst a'.
  destruct (IH _ _ B) as [C D]. destruct (one_by_one f1 cs), (one_by_one g1 cs). cbn [fst snd] in *. split; [now subst|exact D].
Qed.

Definition call_cost (f : fs) (c : fcall) : N :=
  3 + match written c with Some d => lenN d | None => lenN (contents_of f (path_of c)) end.
Fixpoint cost (f : fs) (cs : list fcall) : N :=
  match cs with [] => 0 | c :: r => call_cost f c + cost (fst (one_call f c)) r end.
Definition spent (ph : fphase) : N :=
  match ph with Before => 0 | Opened => 1 | InRead _ got => 2 + lenN got | InWrite d => 1 + d end.
Lemma cost_same cs : forall f g, same f g -> cost f cs = cost g cs.
Proof.
  induction cs as [|c cs IH]; intros f g H; [reflexivity|]. cbn [cost]. rewrite (IH _ _ (proj2 (one_call_same _ _ c H))).
  unfold call_cost, contents_of. now rewrite H.
Qed.

Definition phase_ok (f : fs) (cs : list fcall) (ph : fphase) : Prop :=
  match cs with
  | [] => ph = Before
  | c :: _ =>
    match ph with
    | Before => True
    | Opened => written c = None /\ f (path_of c) <> None
    | InRead buf got => written c = None /\ f (path_of c) <> None /\ buf = range_to_fill c (lenN (contents_of f (path_of c))) /\
        got = takeN (lenN got) (contents_of f (path_of c)) /\ lenN got <= lenN buf
    | InWrite d => exists data, written c = Some data /\ d <= lenN data /\ f (path_of c) = Some (takeN d data)
    end
  end.

Lemma fill_len c n : written c = None -> lenN (range_to_fill c n) <= n.
Proof.
  destruct c as [p [k|]|p out|p d|p d]; try discriminate; intros _; cbn [range_to_fill].
  - unfold zero_bytes. rewrite lenN_repeat. lia.
  - unfold zero_bytes. rewrite lenN_repeat. lia.
  - destruct (n <? lenN out) eqn:E; [rewrite lenN_takeN|]; lia.
Qed.

Lemma zero_len n : lenN (zero_bytes n) = n.
Proof. unfold zero_bytes. rewrite lenN_repeat. lia. Qed.

Lemma whole_read f c x : written c = None -> f (path_of c) = Some x ->
  one_call f c = (f, completed c (takeN (lenN (range_to_fill c (lenN x))) x)).
Proof.
  intros W F. destruct c as [p [k|]|p out|p d|p d]; try discriminate; cbn [one_call completed range_to_fill path_of] in *; rewrite F.
  - rewrite zero_len. do 3 f_equal. destruct (N.le_gt_cases k (lenN x)); [f_equal; lia|].
    rewrite !takeN_all by lia. reflexivity.
  - rewrite zero_len, takeN_all by lia. reflexivity.
  - f_equal. destruct (lenN x <? lenN out) eqn:E; rewrite ?lenN_takeN.
    + replace (N.min (N.min (lenN x) (lenN out)) (lenN x)) with (lenN x) by lia.
      rewrite !takeN_all by lia. f_equal. f_equal. lia.
    + f_equal.
Qed.

Lemma whole_write f c d a : written c = Some d -> a = completed c [] ->
  one_call f c = (fun q => if q =? path_of c then Some d else f q, a).
Proof. intros W ->. destruct c; try discriminate; injection W as ->; reflexivity. Qed.

Lemma put_grows data d m : d <= lenN data ->
  put_at (takeN d data) d (takeN m (dropN d data)) = takeN (d + lenN (takeN m (dropN d data))) data.
Proof.
  intros H. unfold put_at.
  assert (Z : zero_bytes (d - lenN (takeN d data)) = []).
  { rewrite lenN_takeN. replace (d - N.min d (lenN data)) with 0 by lia. reflexivity. }
  rewrite ?Z, ?app_nil_r, ?takeN_takeN, ?N.min_id.
  rewrite (dropN_all _ (takeN d data)) by (rewrite lenN_takeN; lia). rewrite app_nil_r, takeN_plus. f_equal.
  rewrite lenN_takeN, lenN_dropN. destruct (N.le_gt_cases m (lenN data - d)); [f_equal; lia|].
  rewrite !takeN_all by (rewrite lenN_dropN; lia). reflexivity.
Qed.

Lemma alone_step f cs ph ans m f' t' : 1 <= m -> phase_ok f cs ph -> cs <> [] ->
  fthread_step f (FThread cs ph ans) m = (f', t') ->
  phase_ok f' (ft_calls t') (ft_phase t') /\
  ans ++ snd (one_by_one f cs) = ft_answers t' ++ snd (one_by_one f' (ft_calls t')) /\
  same (fst (one_by_one f cs)) (fst (one_by_one f' (ft_calls t'))) /\
  cost f' (ft_calls t') - spent (ft_phase t') + 1 <= cost f cs - spent ph /\
  (ft_calls t' <> [] -> spent (ft_phase t') < cost f' (ft_calls t')).
Proof.
  intros Hm Hp Hn E. destruct cs as [|c cs]; [congruence|]. clear Hn.
  assert (M : (m =? 0) = false) by (apply N.eqb_neq; lia).
  assert (done : forall a, one_call f c = (f, a) -> f' = f -> t' = FThread cs Before (ans ++ [a]) -> spent ph + 1 <= call_cost f c ->
    phase_ok f' (ft_calls t') (ft_phase t') /\
    ans ++ snd (one_by_one f (c :: cs)) = ft_answers t' ++ snd (one_by_one f' (ft_calls t')) /\
    same (fst (one_by_one f (c :: cs))) (fst (one_by_one f' (ft_calls t'))) /\
    cost f' (ft_calls t') - spent (ft_phase t') + 1 <= cost f (c :: cs) - spent ph /\
    (ft_calls t' <> [] -> spent (ft_phase t') < cost f' (ft_calls t'))).
  { intros a O -> -> L. cbn [ft_calls ft_phase ft_answers one_by_one cost spent]. rewrite O. cbn [fst].
    destruct (one_by_one f cs) as [f2 xs]. cbn [fst snd]. repeat split; try (intros ?; reflexivity).
    - destruct cs; reflexivity.
    - now rewrite <- app_assoc.
    - lia.
    - intros Q. destruct cs; [congruence|]. cbn [cost]. unfold call_cost. lia. }
  assert (on : forall ph', f' = f -> t' = FThread (c :: cs) ph' ans -> phase_ok f (c :: cs) ph' -> spent ph < spent ph' -> spent ph' < call_cost f c ->
    phase_ok f' (ft_calls t') (ft_phase t') /\
    ans ++ snd (one_by_one f (c :: cs)) = ft_answers t' ++ snd (one_by_one f' (ft_calls t')) /\
    same (fst (one_by_one f (c :: cs))) (fst (one_by_one f' (ft_calls t'))) /\
    cost f' (ft_calls t') - spent (ft_phase t') + 1 <= cost f (c :: cs) - spent ph /\
    (ft_calls t' <> [] -> spent (ft_phase t') < cost f' (ft_calls t'))).
  { intros ph' -> -> K L L2. cbn [ft_calls ft_phase ft_answers]. split; [exact K|]. split; [reflexivity|]. split; [intros ?; reflexivity|].
    cbn [cost]. split; lia. }
  assert (wr : forall d data, written c = Some data -> d <= lenN data -> same f' (fun q => if q =? path_of c then Some (takeN d data) else f q) ->
    t' = FThread (c :: cs) (InWrite d) ans -> spent ph < 1 + d ->
    phase_ok f' (ft_calls t') (ft_phase t') /\
    ans ++ snd (one_by_one f (c :: cs)) = ft_answers t' ++ snd (one_by_one f' (ft_calls t')) /\
    same (fst (one_by_one f (c :: cs))) (fst (one_by_one f' (ft_calls t'))) /\
    cost f' (ft_calls t') - spent (ft_phase t') + 1 <= cost f (c :: cs) - spent ph /\
    (ft_calls t' <> [] -> spent (ft_phase t') < cost f' (ft_calls t'))).
  { intros d data W L F -> S1. cbn [ft_calls ft_phase ft_answers].
    assert (C : call_cost f' c = call_cost f c) by (unfold call_cost; now rewrite W).
    assert (Q : same (fst (one_call f c)) (fst (one_call f' c))).
    { rewrite !(whole_write _ _ _ _ W eq_refl). cbn [fst]. intros q. rewrite (F q). now destruct (q =? path_of c). }
    assert (A : snd (one_call f c) = snd (one_call f' c)) by now rewrite !(whole_write _ _ _ _ W eq_refl).
    split; [exists data; split; [exact W|]; split; [exact L|]; rewrite (F _), N.eqb_refl; reflexivity|].
    cbn [one_by_one cost spent]. rewrite C. destruct (one_call f c) as [f1 a], (one_call f' c) as [f1' a']. cbn [fst snd] in Q, A |- *. subst a'.
    rewrite (cost_same cs _ _ Q). destruct (one_by_one_same cs _ _ Q) as [B D].
    destruct (one_by_one f1 cs), (one_by_one f1' cs). cbn [fst snd] in *. subst. split; [reflexivity|]. split; [exact D|].
    assert (3 + lenN data = call_cost f c) by (unfold call_cost; now rewrite W). split; lia. }
  cbn [fthread_step ft_calls ft_phase ft_answers] in E. destruct ph as [| |buf got|d].
  - destruct (written c) as [data|] eqn:W.
    + assert (G : call_step f c Before m = (fs_set f (path_of c) [], inl (InWrite 0))).
      { destruct c; try discriminate; cbn [call_step call_path path_of]; now rewrite M. }
      rewrite G in E. injection E as <- <-. apply (wr 0 data eq_refl); [lia| |reflexivity|cbn; lia].
      intros q. unfold fs_set. now rewrite takeN_0.
    + assert (G : call_step f c Before m = match f (path_of c) with Some _ => (f, inl Opened) | None => (f, inr (not_opened c)) end).
      { destruct c; try discriminate; cbn [call_step call_path path_of]; now rewrite M. }
      rewrite G in E. destruct (f (path_of c)) as [x|] eqn:F; injection E as <- <-.
      * apply (on Opened); auto; [split; [exact W|congruence]|cbn; lia|unfold call_cost; cbn; lia].
      * apply (done (not_opened c)); auto; [|unfold call_cost; cbn [spent]; lia].
        destruct c; try discriminate; cbn [one_call not_opened path_of] in *; now rewrite F.
  - destruct Hp as [W F]. rewrite (eq_refl : call_step f c Opened m = (f, inl (InRead (range_to_fill c (lenN (contents_of f (call_path c)))) []))) in E.
    rewrite path_same in E. injection E as <- <-. apply (on (InRead (range_to_fill c (lenN (contents_of f (path_of c)))) [])); auto.
    + cbn [phase_ok]. rewrite lenN_nil, takeN_0. repeat split; auto. lia.
    + cbn [spent]. rewrite lenN_nil. lia.
    + unfold call_cost. cbn [spent]. rewrite lenN_nil. lia.
  - destruct Hp as (W & F & -> & G & L). destruct (f (path_of c)) as [x|] eqn:Fx; [|congruence]. clear F.
    assert (X : contents_of f (path_of c) = x) by (unfold contents_of; now rewrite Fx). rewrite X in *.
    pose proof (fill_len c (lenN x) W) as L2. pose proof (whole_read _ _ _ W Fx) as O. set (buf := range_to_fill c (lenN x)) in *.
    set (k := N.min m (lenN buf - lenN got)) in *.
    assert (St : call_step f c (InRead buf got) m = match takeN k (dropN (lenN got) x) with
        | [] => (f, inr (completed c (got ++ dropN (lenN got) buf)))
        | piece => (f, inl (InRead buf (got ++ piece))) end).
    { destruct c; try discriminate; cbn [call_step call_path path_of] in *; now rewrite X. }
    rewrite St in E. clear St. assert (Lp : lenN (takeN k (dropN (lenN got) x)) = k).
    { rewrite lenN_takeN, lenN_dropN. unfold k. lia. }
    assert (P : got ++ takeN k (dropN (lenN got) x) = takeN (lenN got + k) x) by (rewrite takeN_plus; now rewrite <- G).
    assert (Cc : call_cost f c = 3 + lenN x) by (unfold call_cost; now rewrite W, X).
    destruct (takeN k (dropN (lenN got) x)) as [|y piece].
    + injection E as <- <-. rewrite lenN_nil in Lp. assert (E : lenN got = lenN buf) by (unfold k in Lp; lia).
      apply (done (completed c (got ++ dropN (lenN got) buf))); auto.
      * rewrite (dropN_all _ buf), app_nil_r by lia. rewrite O. now rewrite <- E, <- G.
      * cbn [spent]. lia.
    + injection E as <- <-. apply (on (InRead buf (got ++ y :: piece))); auto.
      * cbn [phase_ok]. rewrite X. repeat split; auto; [congruence| |]; rewrite ?lenN_app, Lp; [|unfold k; lia].
        rewrite P. reflexivity.
      * cbn [spent]. rewrite lenN_app, lenN_cons. lia.
      * cbn [spent]. rewrite lenN_app, Lp, Cc. unfold k. lia.
  - destruct Hp as (data & W & L & F).
    assert (X : contents_of f (path_of c) = takeN d data) by (unfold contents_of; now rewrite F).
    assert (St : call_step f c (InWrite d) m = match takeN m (dropN d data) with
        | [] => (f, inr (completed c []))
        | piece => (fs_set f (path_of c) (put_at (takeN d data) d piece), inl (InWrite (d + lenN piece))) end).
    { rewrite <- X. destruct c; try discriminate; injection W as ->; reflexivity. }
    rewrite St in E. clear St. pose proof (put_grows data d m L) as Pg.
    assert (Lp : lenN (takeN m (dropN d data)) = N.min m (lenN data - d)) by now rewrite lenN_takeN, lenN_dropN.
    destruct (takeN m (dropN d data)) as [|y piece].
    + injection E as <- <-. rewrite lenN_nil in Lp. assert (D : d = lenN data) by lia. subst d. rewrite takeN_all in F by lia.
      pose proof (whole_write f _ _ _ W eq_refl) as O.
      assert (Q : same (fst (one_call f c)) f).
      { rewrite O. cbn [fst]. intros q. destruct (N.eqb_spec q (path_of c)) as [->|]; congruence. }
      cbn [ft_calls ft_phase ft_answers one_by_one cost spent]. rewrite (cost_same cs _ _ Q).
      destruct (one_by_one_same cs _ _ Q) as [A B]. rewrite O in *. cbn [fst] in *.
      destruct (one_by_one _ cs) as [g1 x1]. destruct (one_by_one f cs) as [g2 x2]. cbn [fst snd] in *. subst x1.
      split; [destruct cs; reflexivity|]. split; [now rewrite <- app_assoc|]. split; [exact B|].
      assert (3 + lenN data = call_cost f c) by (unfold call_cost; now rewrite W). split; [lia|].
      intros Q2. destruct cs; [congruence|]. cbn [cost]. unfold call_cost. lia.
    + injection E as <- <-. apply (wr (d + lenN (y :: piece)) data W); auto; [lia| |cbn [spent]; rewrite lenN_cons; lia].
      intros q. unfold fs_set. now rewrite Pg.
Qed.

Definition left_to_do (f : fs) (t : fthread) : N := cost f (ft_calls t) - spent (ft_phase t).
Definition fine (f : fs) (t : fthread) : Prop :=
  phase_ok f (ft_calls t) (ft_phase t) /\ (ft_calls t <> [] -> spent (ft_phase t) < cost f (ft_calls t)).

Lemma alone_run i : forall sched st, Forall (fun im => fst im = i) sched -> works sched -> fine (fy_fs st) (fy_thread st i) ->
  let t := fy_thread st i in let s := fsystem_run sched st in let t' := fy_thread s i in
  ft_answers t ++ snd (one_by_one (fy_fs st) (ft_calls t)) = ft_answers t' ++ snd (one_by_one (fy_fs s) (ft_calls t')) /\
  same (fst (one_by_one (fy_fs st) (ft_calls t))) (fst (one_by_one (fy_fs s) (ft_calls t'))) /\
  (left_to_do (fy_fs st) t <= lenN sched -> ft_calls t' = []).
Proof.
  induction sched as [|[k m] sched IH]; intros st Hi Hw [P Q]; cbn zeta.
  - cbn [fsystem_run fold_left]. split; [reflexivity|]. split; [intros ?; reflexivity|]. rewrite lenN_nil. unfold left_to_do.
    intros L. destruct (ft_calls (fy_thread st i)) as [|c cs]; [reflexivity|]. specialize (Q ltac:(discriminate)). lia.
  - pose proof (Forall_inv Hi) as Ei. pose proof (Forall_inv_tail Hi) as Hi'. pose proof (Forall_inv Hw) as Em.
    pose proof (Forall_inv_tail Hw) as Hw'. cbn [fst snd] in Ei, Em. subst k.
    unfold fsystem_run. cbn [fold_left]. fold (fsystem_run sched (fsystem_step st (i, m))). set (st1 := fsystem_step st (i, m)).
    destruct (fthread_step (fy_fs st) (fy_thread st i) m) as [f1 t1] eqn:E.
    assert (F1 : fy_fs st1 = f1) by (unfold st1, fsystem_step; cbn [fst snd]; now rewrite E).
    assert (T1 : fy_thread st1 i = t1) by (unfold st1, fsystem_step; cbn [fst snd]; rewrite E; cbn; now rewrite N.eqb_refl).
    destruct (ft_calls (fy_thread st i)) as [|c cs] eqn:C.
    + assert (f1 = fy_fs st /\ t1 = fy_thread st i) as [-> ->] by (unfold fthread_step in E; rewrite C in E; now injection E).
      destruct (IH st1 Hi' Hw') as (A & B & D); [rewrite F1, T1; unfold fine; rewrite C; split; [exact P|congruence]|]. unfold left_to_do in D. rewrite F1, T1, C in A, B, D.
      split; [exact A|]. split; [exact B|]. intros _. apply D. cbn. lia.
    + destruct (fy_thread st i) as [cs0 ph ans] eqn:T. cbn [ft_calls ft_phase ft_answers] in *. subst cs0.
      destruct (alone_step _ _ _ _ _ _ _ Em P ltac:(discriminate) E) as (P1 & A1 & B1 & D1 & Q1).
      destruct (IH st1 Hi' Hw') as (A & B & D); [rewrite F1, T1; split; assumption|]. rewrite F1, T1 in A, B, D.
      split; [now rewrite A1|]. split; [intros q; now rewrite (B1 q)|].
      intros L. apply D. unfold left_to_do in *. rewrite lenN_cons in L. cbn [ft_calls ft_phase] in L. lia.
Qed.

Lemma turns_only i sched : lenN (only i sched) = turns i sched.
Proof.
  induction sched as [|[k m] r IH]; [reflexivity|]. cbn [only filter turns fst]. fold (only i r).
  destruct (k =? i); [rewrite lenN_cons, IH|]; lia.
Qed.
Lemma only_fst i sched : Forall (fun im => fst im = i) (only i sched).
Proof. apply Forall_forall. intros [k m] H. apply filter_In in H as [_ H]. now apply N.eqb_eq. Qed.
Lemma only_works i sched : works sched -> works (only i sched).
Proof. intros H. apply Forall_forall. intros x Hx. apply filter_In in Hx as [Hx _]. eapply Forall_forall in H; eassumption. Qed.

Lemma own_files f progs i : undisturbed progs i ->
  (exists n, forall sched, works sched -> n <= turns i sched -> ended (fsystem_run sched (fsystem_start f progs)) i) /\
  forall sched, works sched -> let s := fsystem_run sched (fsystem_start f progs) in
  (exists rest, answers s i ++ rest = snd (one_by_one f (progs i))) /\
  (ended s i -> answers s i = snd (one_by_one f (progs i)) /\
    forall p, uses (progs i) p -> fy_fs s p = fst (one_by_one f (progs i)) p).
Proof.
  intros U.
  assert (Fi : fine (fy_fs (fsystem_start f progs)) (fy_thread (fsystem_start f progs) i)).
  { split; cbn; [destruct (progs i); reflexivity || exact I|]. intros H. destruct (progs i); [congruence|]. cbn [cost]. unfold call_cost. lia. }
  split.
  - exists (cost f (progs i)). intros sched W L. apply (as_alone f progs i sched U).
    destruct (alone_run i (only i sched) _ (only_fst i sched) (only_works _ _ W) Fi) as (_ & _ & D). apply D.
    rewrite turns_only. unfold left_to_do. cbn. lia.
  - intros sched W s. destruct (as_alone f progs i sched U) as (A & B & C). fold s in A, B, C.
    destruct (alone_run i (only i sched) _ (only_fst i sched) (only_works _ _ W) Fi) as (A1 & B1 & _).
    set (s0 := fsystem_run (only i sched) (fsystem_start f progs)) in *. cbn [fsystem_start fy_fs fy_thread ft_answers ft_calls] in A1, B1.
    cbn [app] in A1. rewrite A1. fold (answers s0 i) in A1 |- *. rewrite A. split; [eexists; reflexivity|].
    intros E. apply B in E. unfold ended in E. rewrite E in A1, B1 |- *. cbn [one_by_one fst snd] in *.
    split; [now rewrite app_nil_r|]. intros p Up. now rewrite (C p Up), (B1 p).
Qed.

Lemma untouched f progs p sched : (forall j, ~ writes (progs j) p) -> fy_fs (fsystem_run sched (fsystem_start f progs)) p = f p.
Proof.
  intros H. assert (G : forall st, parts st progs -> fy_fs (fsystem_run sched st) p = fy_fs st p).
  { induction sched as [|[i m] sched IH]; intros st P; [reflexivity|]. unfold fsystem_run. cbn [fold_left].
    fold (fsystem_run sched (fsystem_step st (i, m))). rewrite (IH _ (parts_step _ _ _ P)).
    unfold fsystem_step, fthread_step. cbn [fst snd]. pose proof (P i) as Pi.
    destruct (ft_calls (fy_thread st i)) as [|c cs]; [reflexivity|].
    destruct (call_step (fy_fs st) c _ m) as [f' r] eqn:E. cbn [fy_fs].
    apply (call_step_elsewhere _ _ _ _ _ _ E). destruct (N.eq_dec p (path_of c)) as [->|Np]; [|now left].
    right. destruct (written c) as [d|] eqn:W; [|reflexivity]. destruct (H i). eapply part_writes; eassumption. }
  apply (G _ (parts_start f progs)).
Qed.

(** * Where bytes come from *)
Section From.
Variable f0 : fs.
Variable progs : N -> list fcall.
Notation ok := (from f0 progs).

Lemma from_zero p k b : ok p k b -> ok p k x00.
Proof.
  intros [(x & F & H)|(j & c & d & I & P & W & H)]; [left; exists x; split; [exact F|]|right; exists j, c, d; repeat (split; [assumption|])];
    right; (split; [reflexivity|]); destruct H as [H|[_ H]]; auto; apply nth_error_Some; congruence.
Qed.

Definition bytes_ok (p : path) (x : list byte) : Prop := forall k b, nth_error x k = Some b -> ok p k b.

Lemma bytes_zero p x k : bytes_ok p x -> (k < length x)%nat -> ok p k x00.
Proof.
  intros H L. apply nth_error_Some in L. destruct (nth_error x k) as [b|] eqn:E; [|congruence]. eapply from_zero, H, E.
Qed.

Lemma bytes_app p x y : bytes_ok p x -> (forall k b, nth_error y k = Some b -> ok p (length x + k) b) -> bytes_ok p (x ++ y).
Proof.
  intros H G k b E. destruct (Nat.lt_ge_cases k (length x)); [rewrite nth_error_app1 in E by assumption; eauto|].
  rewrite nth_error_app2 in E by assumption. apply G in E. now replace (length x + (k - length x))%nat with k in E by lia.
Qed.

Lemma len_nat {A} (l : list A) : N.to_nat (lenN l) = length l.
Proof. unfold lenN. apply Nat2N.id. Qed.

Lemma nth_takeN {A} n (l : list A) k b : nth_error (takeN n l) k = Some b -> nth_error l k = Some b /\ (k < N.to_nat n)%nat.
Proof.
  intros E. assert (L : (k < length (takeN n l))%nat) by (apply nth_error_Some; congruence).
  rewrite <- len_nat, lenN_takeN in L. split; [|lia].
  rewrite <- (takeN_dropN n l), nth_error_app1; [exact E|]. rewrite <- len_nat, lenN_takeN. lia.
Qed.

(** What is known of a call under way, and of an answer. *)
Definition filler_ok (c : fcall) (buf : list byte) : Prop :=
  exists n, buf = range_to_fill c n /\ forall k, (k < N.to_nat n)%nat -> ok (path_of c) k x00.
Definition phase_from (c : fcall) (ph : fphase) : Prop :=
  match ph with
  | Before => True
  | Opened => written c = None
  | InRead buf got => written c = None /\ filler_ok c buf /\ bytes_ok (path_of c) got /\ lenN got <= lenN buf
  | InWrite d => exists data, written c = Some data /\ d <= lenN data
  end.
Definition thread_from (j : N) (t : fthread) : Prop :=
  (exists past, progs j = past ++ ft_calls t /\ Forall2 (answer_from f0 progs) past (ft_answers t)) /\
  match ft_calls t with [] => True | c :: _ => phase_from c (ft_phase t) end.
Definition inv (st : fsystem) : Prop :=
  (forall p x, fy_fs st p = Some x -> bytes_ok p x) /\ forall j, thread_from j (fy_thread st j).

Lemma read_answer c buf got : written c = None -> filler_ok c buf -> bytes_ok (path_of c) got -> lenN got <= lenN buf ->
  answer_from f0 progs c (completed c (got ++ dropN (lenN got) buf)).
Proof.
  intros W (n & -> & Z) G L.
  assert (Len : lenN (got ++ dropN (lenN got) (range_to_fill c n)) = lenN (range_to_fill c n)) by (rewrite lenN_app, lenN_dropN; lia).
  assert (zeros : forall m, m <= n -> bytes_ok (path_of c) (got ++ dropN (lenN got) (zero_bytes m))).
  { intros m Lm. apply bytes_app; [exact G|]. intros k b E. rewrite nth_error_dropN, len_nat in E. unfold zero_bytes in E.
    assert (Lk : (length got + k < N.to_nat m)%nat).
    { rewrite <- (repeat_length x00 (N.to_nat m)). apply nth_error_Some. congruence. }
    rewrite (nth_error_repeat x00 Lk) in E. injection E as <-. apply Z. lia. }
  destruct c as [p [k|]|p out|p d|p d]; try discriminate; cbn [completed answer_from range_to_fill path_of] in *.
  - split; [rewrite Len, zero_len; lia|]. apply zeros. lia.
  - split; [exact I|]. apply zeros. lia.
  - split; [reflexivity|]. rewrite Len. split; [destruct (n <? lenN out) eqn:E; rewrite ?lenN_takeN; lia|].
    intros k b E. destruct (Nat.lt_ge_cases k (length got)); [left; rewrite nth_error_app1 in E by assumption; now apply G|].
    right. rewrite nth_error_app2 in E by assumption. rewrite nth_error_dropN, len_nat in E.
    replace (length got + (k - length got))%nat with k in E by lia.
    destruct (n <? lenN out); [now apply nth_takeN in E|exact E].
Qed.

Lemma refused_answer c : answer_from f0 progs c (not_opened c).
Proof. destruct c; cbn; auto. Qed.

Lemma contents_ok st p : inv st -> bytes_ok p (contents_of (fy_fs st) p).
Proof. intros [H _]. unfold contents_of. destruct (fy_fs st p) as [x|] eqn:E; [now apply H|]. intros [|k] b; discriminate. Qed.

Lemma put_ok j c cs data x d piece : part (c :: cs) (progs j) -> written c = Some data -> d <= lenN data -> bytes_ok (path_of c) x ->
  (forall k b, nth_error piece k = Some b -> nth_error data (N.to_nat d + k) = Some b) -> bytes_ok (path_of c) (put_at x d piece).
Proof.
  intros [past Pj] W L X Pc k b E. unfold put_at in E.
  assert (Own : forall b', nth_error data k = Some b' \/ (b' = x00 /\ (k < length data)%nat) -> ok (path_of c) k b').
  { intros b' H. right. exists j, c, data. split; [rewrite Pj; apply in_or_app; right; now left|]. auto. }
  set (front := takeN d (x ++ zero_bytes (d - lenN x))) in *.
  assert (Lf : length front = N.to_nat d).
  { rewrite <- len_nat. unfold front. rewrite lenN_takeN, lenN_app, zero_len. lia. }
  destruct (Nat.lt_ge_cases k (length front)) as [K|K].
  - rewrite nth_error_app1 in E by assumption. apply nth_takeN in E as [E K']. destruct (Nat.lt_ge_cases k (length x)).
    + rewrite nth_error_app1 in E by assumption. now apply X.
    + rewrite nth_error_app2 in E by assumption. unfold zero_bytes in E.
      assert (Lk : (k - length x < N.to_nat (d - lenN x))%nat).
      { rewrite <- (repeat_length x00 (N.to_nat (d - lenN x))). apply nth_error_Some. congruence. }
      rewrite (nth_error_repeat x00 Lk) in E. injection E as <-. apply Own. right. split; [reflexivity|].
      pose proof (len_nat data). lia.
  - rewrite nth_error_app2 in E by assumption. rewrite Lf in *. destruct (Nat.lt_ge_cases (k - N.to_nat d) (length piece)) as [K2|K2].
    + rewrite nth_error_app1 in E by assumption. apply Pc in E. apply Own. left. now replace (N.to_nat d + (k - N.to_nat d))%nat with k in E by lia.
    + rewrite nth_error_app2 in E by assumption. rewrite nth_error_dropN in E.
      pose proof (len_nat piece). replace (N.to_nat (d + lenN piece) + (k - N.to_nat d - length piece))%nat with k in E by lia. now apply X.
Qed.

Lemma inv_step st im : inv st -> inv (fsystem_step st im).
Proof.
  intros Hinv. destruct im as [i m]. unfold fsystem_step, fthread_step. cbn [fst snd]. pose proof Hinv as [F T]. pose proof (T i) as [(past & Pi & An) Ph].
  destruct (ft_calls (fy_thread st i)) as [|c cs] eqn:C.
  { split; [exact F|]. intros j. cbn [fy_thread]. destruct (N.eqb_spec j i); [subst|]; apply T. }
  assert (same_fs : forall r, thread_from i match r with inl ph => FThread (c :: cs) ph (ft_answers (fy_thread st i))
                                     | inr a => FThread cs Before (ft_answers (fy_thread st i) ++ [a]) end -> forall f',
     (forall p x, f' p = Some x -> bytes_ok p x) ->
     inv (FSystem f' (fun k => if k =? i then match r with inl ph => FThread (c :: cs) ph (ft_answers (fy_thread st i))
                                     | inr a => FThread cs Before (ft_answers (fy_thread st i) ++ [a]) end else fy_thread st k))).
  { intros r H f' F'. split; [exact F'|]. intros j. cbn [fy_thread]. destruct (N.eqb_spec j i); [subst; exact H|apply T]. }
  assert (answered : forall a, answer_from f0 progs c a -> thread_from i (FThread cs Before (ft_answers (fy_thread st i) ++ [a]))).
  { intros a H. split; cbn [ft_calls ft_answers ft_phase].
    - exists (past ++ [c]). split; [now rewrite <- app_assoc|]. apply Forall2_app; [exact An|]. constructor; [exact H|constructor].
    - destruct cs; exact I. }
  assert (going : forall ph, phase_from c ph -> thread_from i (FThread (c :: cs) ph (ft_answers (fy_thread st i)))).
  { intros ph H. split; cbn [ft_calls ft_answers ft_phase]; [exists past; auto|exact H]. }
  assert (set_ok : forall x, bytes_ok (path_of c) x -> forall p y, fs_set (fy_fs st) (path_of c) x p = Some y -> bytes_ok p y).
  { intros x H p y. unfold fs_set. destruct (N.eqb_spec p (path_of c)) as [->|]; [|apply F]. now intros [= <-]. }
  pose proof (contents_ok st (path_of c) Hinv) as X.
  destruct (ft_phase (fy_thread st i)) as [| |buf got|d].
  - destruct (written c) as [data|] eqn:W.
    + assert (G : call_step (fy_fs st) c Before m = if m =? 0 then (fy_fs st, inr (not_opened c)) else (fs_set (fy_fs st) (path_of c) [], inl (InWrite 0))).
      { destruct c; try discriminate; reflexivity. }
      rewrite G. destruct (m =? 0).
      * apply (same_fs (inr (not_opened c))); [apply answered, refused_answer|exact F].
      * apply (same_fs (inl (InWrite 0))); [apply going; exists data; split; [exact W|lia]|].
        apply set_ok. intros [|k] b; discriminate.
    + assert (G : call_step (fy_fs st) c Before m = if m =? 0 then (fy_fs st, inr (not_opened c))
                    else match fy_fs st (path_of c) with Some _ => (fy_fs st, inl Opened) | None => (fy_fs st, inr (not_opened c)) end).
      { destruct c; try discriminate; reflexivity. }
      rewrite G. destruct (m =? 0); [apply (same_fs (inr (not_opened c))); [apply answered, refused_answer|exact F]|].
      destruct (fy_fs st (path_of c)).
      * apply (same_fs (inl Opened)); [now apply going|exact F].
      * apply (same_fs (inr (not_opened c))); [apply answered, refused_answer|exact F].
  - rewrite (eq_refl : call_step (fy_fs st) c Opened m =
               (fy_fs st, inl (InRead (range_to_fill c (lenN (contents_of (fy_fs st) (call_path c)))) []))). rewrite path_same.
    apply (same_fs (inl (InRead _ []))); [|exact F]. apply going. split; [exact Ph|]. split; [|split; [intros [|k] b; discriminate|rewrite lenN_nil; lia]].
    eexists. split; [reflexivity|]. intros k K. eapply bytes_zero; [exact X|]. rewrite len_nat in K. exact K.
  - destruct Ph as (W & Fi & G & L).
    assert (St : call_step (fy_fs st) c (InRead buf got) m =
       match takeN (N.min m (lenN buf - lenN got)) (dropN (lenN got) (contents_of (fy_fs st) (path_of c))) with
        | [] => (fy_fs st, inr (completed c (got ++ dropN (lenN got) buf)))
        | piece => (fy_fs st, inl (InRead buf (got ++ piece))) end).
    { destruct c; try discriminate; reflexivity. }
    rewrite St. clear St.
    assert (Pc : forall k b, nth_error (takeN (N.min m (lenN buf - lenN got)) (dropN (lenN got) (contents_of (fy_fs st) (path_of c)))) k = Some b ->
                   ok (path_of c) (length got + k) b).
    { intros k b E. apply nth_takeN in E as [E _]. rewrite nth_error_dropN, len_nat in E. now apply X. }
    assert (Lp : lenN (takeN (N.min m (lenN buf - lenN got)) (dropN (lenN got) (contents_of (fy_fs st) (path_of c)))) <= lenN buf - lenN got)
      by (rewrite lenN_takeN; lia).
    destruct (takeN _ _) as [|y piece].
    + apply (same_fs (inr (completed c (got ++ dropN (lenN got) buf)))); [|exact F]. now apply answered, read_answer.
    + apply (same_fs (inl (InRead buf (got ++ y :: piece)))); [|exact F]. apply going. split; [exact W|]. split; [exact Fi|].
      split; [now apply bytes_app|]. rewrite lenN_app. lia.
  - destruct Ph as (data & W & L).
    assert (St : call_step (fy_fs st) c (InWrite d) m = match takeN m (dropN d data) with
        | [] => (fy_fs st, inr (completed c []))
        | piece => (fs_set (fy_fs st) (path_of c) (put_at (contents_of (fy_fs st) (path_of c)) d piece), inl (InWrite (d + lenN piece))) end).
    { destruct c; try discriminate; injection W as ->; reflexivity. }
    rewrite St. clear St.
    assert (Pc : forall k b, nth_error (takeN m (dropN d data)) k = Some b -> nth_error data (N.to_nat d + k) = Some b).
    { intros k b E. apply nth_takeN in E as [E _]. now rewrite nth_error_dropN in E. }
    assert (Lp : lenN (takeN m (dropN d data)) <= lenN data - d) by (rewrite lenN_takeN, lenN_dropN; lia).
    destruct (takeN m (dropN d data)) as [|y piece].
    + apply (same_fs (inr (completed c []))); [|exact F]. apply answered. destruct c; try discriminate; cbn; auto.
    + apply (same_fs (inl (InWrite (d + lenN (y :: piece))))); [apply going; exists data; split; [exact W|lia]|].
      apply set_ok. eapply put_ok; [exists past; exact Pi|exact W|exact L|exact X|exact Pc].
Qed.

Lemma inv_run sched : forall st, inv st -> inv (fsystem_run sched st).
Proof.
  induction sched as [|im sched IH]; intros st H; [exact H|]. unfold fsystem_run. cbn [fold_left]. apply IH. now apply inv_step.
Qed.
Lemma inv_start : inv (fsystem_start f0 progs).
Proof.
  split; cbn [fsystem_start fy_fs fy_thread].
  - intros p x E k b H. left. exists x. auto.
  - intros j. split; [exists []; split; [reflexivity|constructor]|]. cbn. destruct (progs j); exact I.
Qed.
Lemma provenance sched : let s := fsystem_run sched (fsystem_start f0 progs) in
  (forall p x k b, fy_fs s p = Some x -> nth_error x k = Some b -> from f0 progs p k b) /\
  (forall i, exists made rest, progs i = made ++ rest /\ Forall2 (answer_from f0 progs) made (answers s i)).
Proof.
  intros s. destruct (inv_run sched _ inv_start) as [A B]. split.
  - intros p x k b E H. exact (A p x E k b H).
  - intros i. destruct (B i) as [(past & P & An) _]. exists past. eexists. split; [exact P|exact An].
Qed.
End From.

(** * One writer *)
Section Torn.
Variables (progs : N -> list fcall) (w : N) (p : path) (old new : list byte) (wc : fcall).
Hypothesis Hw : progs w = [wc].
Hypothesis Hp : path_of wc = p.
Hypothesis Hn : written wc = Some new.
Hypothesis Ho : forall j, j <> w -> ~ writes (progs j) p.

Definition pure (got : list byte) : Prop := got = takeN (lenN got) old.
Definition mixed (got : list byte) : Prop :=
  exists a, a <= lenN got /\ a <= lenN old /\ got = takeN a old ++ takeN (lenN got - a) (dropN a new).
Lemma pure_mixed got : pure got -> mixed got.
Proof.
  intros H. exists (lenN got). unfold pure in H. assert (lenN got <= lenN old) by (rewrite H, lenN_takeN; lia).
  split; [lia|]. split; [assumption|]. now rewrite N.sub_diag, takeN_0, app_nil_r.
Qed.
Definition fits (m : N) : Prop := m <= lenN old \/ m <= lenN new.
Definition good (c : fcall) (a : fanswer) : Prop := forall n x, c = FcRead p n -> a = FaRead (Ok x) -> torn old new x.
Definition reading (R : list byte -> Prop) (c : fcall) (ph : fphase) : Prop :=
  forall n buf got, c = FcRead p n -> ph = InRead buf got -> exists m, buf = zero_bytes m /\ fits m /\ lenN got <= m /\ R got.
Definition thr (R : list byte -> Prop) (j : N) (t : fthread) : Prop :=
  (exists past, progs j = past ++ ft_calls t /\ Forall2 good past (ft_answers t)) /\
  (forall c cs, ft_calls t = c :: cs -> reading R c (ft_phase t)).
Definition stage1 (st : fsystem) : Prop :=
  fy_fs st p = Some old /\ (forall j, thr pure j (fy_thread st j)) /\
  (ft_calls (fy_thread st w) = [] \/ (ft_calls (fy_thread st w) = [wc] /\ ft_phase (fy_thread st w) = Before)).
Definition stage2 (st : fsystem) : Prop :=
  exists d, d <= lenN new /\ fy_fs st p = Some (takeN d new) /\ (forall j, thr mixed j (fy_thread st j)) /\
  (ft_calls (fy_thread st w) = [] \/ (ft_calls (fy_thread st w) = [wc] /\ ft_phase (fy_thread st w) = InWrite d)).

Lemma mixed_torn m got : fits m -> lenN got <= m -> mixed got -> torn old new (got ++ dropN (lenN got) (zero_bytes m)).
Proof.
  intros F L (a & A & B & E). exists a, (lenN got), (N.to_nat m - N.to_nat (lenN got))%nat. split; [exact A|]. split; [exact B|].
  split.
  - rewrite app_assoc, <- E. f_equal. unfold zero_bytes, dropN. clear. generalize (N.to_nat (lenN got)) as k. generalize (N.to_nat m) as q.
    induction q as [|q IH]; intros [|k]; cbn; auto.
  - rewrite lenN_app, lenN_dropN, zero_len. unfold fits in F. replace (lenN got + (m - lenN got)) with m by lia. exact F.
Qed.

(** A turn of a thread that is not the writer. *)
Lemma reader_turn (R : list byte -> Prop) x j f t m f' t' : j <> w -> f p = Some x -> fits (lenN x) ->
  (forall got k, R got -> R (got ++ takeN k (dropN (lenN got) x))) -> R [] -> (forall got, R got -> mixed got) ->
  thr R j t -> fthread_step f t m = (f', t') -> f' p = f p /\ thr R j t'.
Proof.
  intros D Fp Fx Rs R0 Rm [(past & P & An) Rd] E. unfold fthread_step in E. destruct (ft_calls t) as [|c cs] eqn:C.
  { injection E as <- <-. split; [reflexivity|]. split; [exists past; rewrite C; auto|]. intros c cs E. congruence. }
  destruct (call_step f c (ft_phase t) m) as [g r] eqn:St. injection E as <- <-.
  assert (W : path_of c = p -> written c = None).
  { intros Pc. destruct (written c) as [d|] eqn:W; [|reflexivity]. destruct (Ho j D). exists c, d.
    split; [rewrite P; apply in_or_app; right; now left|]. auto. }
  assert (G : g p = f p).
  { apply (call_step_elsewhere _ _ _ _ _ _ St). destruct (N.eq_dec (path_of c) p); [right; auto|left; congruence]. }
  split; [exact G|].
  assert (answered : forall a, good c a -> thr R j (FThread cs Before (ft_answers t ++ [a]))).
  { intros a H. split; cbn [ft_calls ft_answers ft_phase].
    - exists (past ++ [c]). split; [now rewrite <- app_assoc|]. apply Forall2_app; [exact An|]. constructor; [exact H|constructor].
    - intros c' cs' _ n buf got _ Q. discriminate. }
  assert (going : forall ph, reading R c ph -> thr R j (FThread (c :: cs) ph (ft_answers t))).
  { intros ph H. split; cbn [ft_calls ft_answers ft_phase]; [exists past; auto|]. intros c' cs' [= <- <-]. exact H. }
  specialize (Rd c cs eq_refl).
  assert (X : contents_of f p = x) by (unfold contents_of; now rewrite Fp).
  destruct c as [q n|q out|q data|q data].
  2,3,4: destruct r as [ph|a]; [apply going|apply answered]; intros ? ? ?; discriminate.
  destruct (N.eq_dec q p) as [->|Nq].
  2: { destruct r as [ph|a]; [apply going; intros ? ? ? Q|apply answered; intros ? ? Q]; injection Q; congruence. }
  destruct (ft_phase t) as [| |buf got|d]; unfold call_step in St; cbn [call_path] in St; rewrite ?X in St.
  - destruct (m =? 0); [injection St as <- <-; apply answered; intros ? ? _ Q; discriminate|]. rewrite Fp in St.
    injection St as <- <-. apply going. intros ? ? ? _ Q. discriminate.
  - injection St as <- <-. apply going. intros n' buf got [= <-] [= <- <-]. cbn [range_to_fill].
    destruct n as [k|]; eexists; (split; [reflexivity|]); (split; [unfold fits in *; lia|]); rewrite lenN_nil; (split; [lia|exact R0]).
  - destruct (Rd n buf got eq_refl eq_refl) as (k & -> & Fk & L & Rg). rewrite zero_len in St.
    pose proof (Rs got (N.min m (k - lenN got)) Rg) as Rg'.
    assert (Lp : lenN (takeN (N.min m (k - lenN got)) (dropN (lenN got) x)) <= k - lenN got) by (rewrite lenN_takeN; lia).
    destruct (takeN _ _) as [|y piece]; injection St as <- <-.
    + apply answered. intros n' z _ [= <-]. apply mixed_torn; auto.
    + apply going. intros n' buf got' _ [= <- <-]. exists k. split; [reflexivity|]. split; [exact Fk|]. split; [rewrite lenN_app; lia|exact Rg'].
  - injection St as <- <-. apply answered. intros n' z _ [= <-]. exists 0, 0, 0%nat. cbn. repeat split; try lia; try (left; lia).
Qed.

Lemma pure_more got k : pure got -> pure (got ++ takeN k (dropN (lenN got) old)).
Proof.
  unfold pure. intros H. set (pc := takeN k _). assert (L : lenN pc = N.min k (lenN old - lenN got)) by (unfold pc; now rewrite lenN_takeN, lenN_dropN).
  rewrite lenN_app, takeN_plus, <- H. f_equal. rewrite L. unfold pc.
  destruct (N.le_gt_cases k (lenN old - lenN got)); [f_equal; lia|]. rewrite !takeN_all by (rewrite lenN_dropN; lia). reflexivity.
Qed.
Lemma mixed_more d got k : mixed got -> mixed (got ++ takeN k (dropN (lenN got) (takeN d new))).
Proof.
  intros (a & A & B & E). exists a. rewrite lenN_app. split; [lia|]. split; [exact B|].
  replace (lenN got + lenN (takeN k (dropN (lenN got) (takeN d new))) - a)
    with ((lenN got - a) + lenN (takeN k (dropN (lenN got) (takeN d new)))) by lia.
  rewrite takeN_plus, app_assoc, <- E. f_equal. rewrite dropN_dropN. replace (lenN got - a + a) with (lenN got) by lia.
  assert (Q : takeN k (dropN (lenN got) (takeN d new)) = takeN (N.min k (d - lenN got)) (dropN (lenN got) new)).
  { apply nth_error_ext. intros i. destruct (Nat.lt_ge_cases i (N.to_nat k)) as [K|K].
    - rewrite (nth_error_takeN k), (nth_error_takeN (N.min k (d - lenN got))), !nth_error_dropN, nth_error_takeN.
      repeat match goal with |- context [if ?b then _ else _] => destruct b eqn:? end; try reflexivity; try lia.
    - rewrite !nth_error_takeN. repeat match goal with |- context [if ?b then _ else _] => destruct b eqn:? end; try reflexivity; try lia. }
  rewrite Q. rewrite lenN_takeN, lenN_dropN.
  destruct (N.le_gt_cases (N.min k (d - lenN got)) (lenN new - lenN got)); [f_equal; lia|].
  rewrite !takeN_all by (rewrite lenN_dropN; lia). reflexivity.
Qed.

Lemma wc_path : call_path wc = p.
Proof. rewrite path_same. exact Hp. Qed.

Lemma thr_weaken j t : thr pure j t -> thr mixed j t.
Proof.
  intros [A B]. split; [exact A|]. intros c cs E n buf got C Q. destruct (B c cs E n buf got C Q) as (m & M1 & M2 & M3 & M4).
  exists m. repeat (split; [assumption|]). now apply pure_mixed.
Qed.

Lemma writer_thr R ph past ans : thr R w (FThread [wc] past ans) -> thr R w (FThread [wc] ph ans).
Proof.
  intros [A B]. split; [exact A|]. intros c cs [= <- <-] n buf got C Q. rewrite C in Hn. discriminate.
Qed.
Lemma writer_done R ph ans a : thr R w (FThread [wc] ph ans) -> thr R w (FThread [] Before (ans ++ [a])).
Proof.
  intros [(past & P & An) _]. cbn [ft_calls ft_answers] in *. split; [|intros c cs E; discriminate]. exists (past ++ [wc]).
  cbn [ft_calls ft_answers]. split; [now rewrite app_nil_r|]. apply Forall2_app; [exact An|]. constructor; [|constructor].
  intros n x E. rewrite E in Hn. discriminate.
Qed.

Lemma stage_step st im : stage1 st \/ stage2 st -> stage1 (fsystem_step st im) \/ stage2 (fsystem_step st im).
Proof.
  intros H. destruct im as [i m]. unfold fsystem_step. cbn [fst snd].
  destruct (fthread_step (fy_fs st) (fy_thread st i) m) as [f' t'] eqn:E.
  destruct (N.eq_dec i w) as [->|Ni].
  - destruct H as [(F & T & K)|(d & L & F & T & K)].
    + destruct (fy_thread st w) as [cs ph ans] eqn:Tw. cbn [ft_calls ft_phase] in K. unfold fthread_step in E.
      destruct K as [->|[-> ->]]; cbn [ft_calls ft_phase ft_answers] in E.
      * injection E as <- <-. left. split; [exact F|]. cbn [fy_thread]. split.
        -- intros j. destruct (N.eqb_spec j w) as [->|]; [rewrite <- Tw|]; apply T.
        -- rewrite N.eqb_refl. now left.
      * assert (G : call_step (fy_fs st) wc Before m = if m =? 0 then (fy_fs st, inr (not_opened wc)) else (fs_set (fy_fs st) p [], inl (InWrite 0))).
        { clear - Hp Hn. subst p. destruct wc; try discriminate; reflexivity. }
        rewrite G in E. pose proof (T w) as Tw'. rewrite Tw in Tw'. destruct (m =? 0); injection E as <- <-.
        -- left. split; [exact F|]. cbn [fy_thread]. rewrite N.eqb_refl. split; [|now left].
           intros j. destruct (N.eqb_spec j w) as [->|]; [eapply writer_done; exact Tw'|apply T].
        -- right. exists 0. split; [lia|]. cbn [fy_fs fy_thread]. unfold fs_set. rewrite !N.eqb_refl, takeN_0. split; [reflexivity|].
           split; [|now right]. intros j. destruct (N.eqb_spec j w) as [->|]; apply thr_weaken; [eapply writer_thr; exact Tw'|apply T].
    + destruct (fy_thread st w) as [cs ph ans] eqn:Tw. cbn [ft_calls ft_phase] in K. unfold fthread_step in E.
      destruct K as [->|[-> ->]]; cbn [ft_calls ft_phase ft_answers] in E.
      * injection E as <- <-. right. exists d. split; [exact L|]. split; [exact F|]. cbn [fy_thread]. split.
        -- intros j. destruct (N.eqb_spec j w) as [->|]; [rewrite <- Tw|]; apply T.
        -- rewrite N.eqb_refl. now left.
      * assert (X : contents_of (fy_fs st) p = takeN d new) by (unfold contents_of; now rewrite F).
        assert (G : call_step (fy_fs st) wc (InWrite d) m = match takeN m (dropN d new) with
            | [] => (fy_fs st, inr (completed wc []))
            | piece => (fs_set (fy_fs st) p (put_at (takeN d new) d piece), inl (InWrite (d + lenN piece))) end).
        { rewrite <- X. clear - Hp Hn. subst p. destruct wc; try discriminate; injection Hn as ->; reflexivity. }
        rewrite G in E. pose proof (T w) as Tw'. rewrite Tw in Tw'. pose proof (put_grows new d m L) as Pg.
        assert (Lp : lenN (takeN m (dropN d new)) <= lenN new - d) by (rewrite lenN_takeN, lenN_dropN; lia).
        destruct (takeN m (dropN d new)) as [|y piece]; injection E as <- <-.
        -- right. exists d. split; [exact L|]. split; [exact F|]. cbn [fy_thread]. rewrite N.eqb_refl. split; [|now left].
           intros j. destruct (N.eqb_spec j w) as [->|]; [eapply writer_done; exact Tw'|apply T].
        -- right. exists (d + lenN (y :: piece)). split; [lia|]. cbn [fy_fs fy_thread]. unfold fs_set. rewrite !N.eqb_refl, Pg. split; [reflexivity|].
           split; [|now right]. intros j. destruct (N.eqb_spec j w) as [->|]; [eapply writer_thr; exact Tw'|apply T].
  - assert (Nw : (w =? i) = false) by (apply N.eqb_neq; congruence).
    destruct H as [(F & T & K)|(d & L & F & T & K)].
    + destruct (reader_turn pure old i (fy_fs st) (fy_thread st i) m f' t' Ni F) as [A B]; auto; [left; lia|apply pure_more|reflexivity|apply pure_mixed|].
      left. split; [cbn [fy_fs]; congruence|]. cbn [fy_thread]. rewrite Nw. split; [|exact K].
      intros j. destruct (N.eqb_spec j i) as [->|]; [exact B|apply T].
    + destruct (reader_turn mixed (takeN d new) i (fy_fs st) (fy_thread st i) m f' t' Ni F) as [A B]; auto.
      * right. rewrite lenN_takeN. lia.
      * intros; now apply mixed_more.
      * exists 0. cbn. repeat split; try lia.
      * right. exists d. split; [exact L|]. split; [cbn [fy_fs]; congruence|]. cbn [fy_thread]. rewrite Nw. split; [|exact K].
        intros j. destruct (N.eqb_spec j i) as [->|]; [exact B|apply T].
Qed.

Lemma torn_run f sched : f p = Some old -> let s := fsystem_run sched (fsystem_start f progs) in stage1 s \/ stage2 s.
Proof.
  intros F. assert (G : forall st, stage1 st \/ stage2 st -> stage1 (fsystem_run sched st) \/ stage2 (fsystem_run sched st)).
  { clear F. induction sched as [|im r IH]; intros st H; [exact H|]. unfold fsystem_run. cbn [fold_left]. apply IH. now apply stage_step. }
  apply G. left. split; [exact F|]. cbn. rewrite Hw. split; [|now right]. intros j. split; [exists []; split; [reflexivity|constructor]|].
  intros c cs _ n buf got _ Q. discriminate.
Qed.
End Torn.

Lemma torn_reads f progs w p old new sched : one_writer progs w p new -> f p = Some old ->
  let s := fsystem_run sched (fsystem_start f progs) in
  (fy_fs s p = Some old \/ exists k, fy_fs s p = Some (takeN k new)) /\
  (forall i, exists made rest, progs i = made ++ rest /\
    Forall2 (fun c a => forall n x, c = FcRead p n -> a = FaRead (Ok x) -> torn old new x) made (answers s i)).
Proof.
  intros [(wc & Hw & Hp & Hn) Ho] F s. pose proof (torn_run progs w p old new wc Hw Hp Hn Ho f sched F) as H. fold s in H. split.
  - destruct H as [(E & _)|(d & _ & E & _)]; eauto.
  - intros i. assert (T : exists past, progs i = past ++ ft_calls (fy_thread s i) /\ Forall2 (good p old new) past (ft_answers (fy_thread s i))).
    { destruct H as [(_ & T & _)|(d & _ & _ & T & _)]; destruct (T i) as [T' _]; exact T'. }
    destruct T as (past & P & An). exists past. eexists. split; [exact P|exact An].
Qed.

(** * What cannot be relied on *)
Definition an_old : list byte := [x11; x12; x13].
Definition a_new : list byte := [x21; x22; x23; x24].
Definition two (a b : list fcall) (i : N) : list fcall := if i =? 0 then a else if i =? 1 then b else [].

Lemma read_not_atomic : exists f progs p old new zeros mix, f p = Some old /\ one_writer progs 0 p new /\ progs 1 = [FcRead p None] /\
  let run := fun sched => fsystem_run sched (fsystem_start f progs) in
  (works zeros /\ ended (run zeros) 0 /\ ended (run zeros) 1 /\
     answers (run zeros) 1 = [FaRead (Ok (repeat x00 (length old)))] /\ repeat x00 (length old) <> old /\ repeat x00 (length old) <> new) /\
  (works mix /\ ended (run mix) 0 /\ ended (run mix) 1 /\
     exists x, answers (run mix) 1 = [FaRead (Ok x)] /\ ~ prefix_of x old /\ ~ prefix_of x new /\ Forall (fun b => b <> x00) x).
Proof.
  exists (fun q => if q =? 7 then Some an_old else None), (two [FcWrite 7 a_new] [FcRead 7 None]), 7, an_old, a_new,
    [(1, 9); (1, 9); (0, 9); (1, 9); (0, 9); (0, 9)], [(1, 9); (1, 9); (1, 1); (0, 9); (0, 9); (0, 9); (1, 9); (1, 9)].
  split; [reflexivity|]. split.
  { split; [eexists; repeat split|]. intros j D (c & d & I & P & W). unfold two in I. rewrite (proj2 (N.eqb_neq _ _) D) in I.
    destruct (j =? 1); [|destruct I]. destruct I as [<-|[]]. discriminate. }
  split; [reflexivity|]. cbv zeta. split.
  - split; [repeat constructor; discriminate|]. repeat split; try (vm_compute; reflexivity); discriminate.
  - split; [repeat constructor; discriminate|]. split; [reflexivity|]. split; [reflexivity|].
    exists [x11; x22; x23]. split; [vm_compute; reflexivity|]. split; [intros [z Z]; discriminate|]. split; [intros [z Z]; discriminate|].
    repeat constructor; discriminate.
Qed.

Lemma write_not_atomic : exists f progs p a b sched x, progs 0 = [FcWrite p a] /\ progs 1 = [FcWrite p b] /\
  let s := fsystem_run sched (fsystem_start f progs) in
  works sched /\ answers s 0 = [FaWrite (Ok tt)] /\ answers s 1 = [FaWrite (Ok tt)] /\ fy_fs s p = Some x /\ x <> a /\ x <> b.
Proof.
  exists (fun _ => None), (two [FcWrite 7 an_old] [FcWrite 7 a_new]), 7, an_old, a_new,
    [(0, 9); (1, 9); (1, 2); (0, 1); (1, 9); (0, 1); (0, 9); (0, 9); (1, 9)], [x11; x12; x13; x24].
  split; [reflexivity|]. split; [reflexivity|]. cbv zeta. split; [repeat constructor; discriminate|].
  repeat split; try (vm_compute; reflexivity); discriminate.
Qed.

Lemma open_fails f progs sched i c cs : let s := fsystem_run sched (fsystem_start f progs) in
  about_to_make s i (c :: cs) ->
  let s' := fsystem_run (sched ++ [(i, 0)]) (fsystem_start f progs) in
  (exists a, refusal c a /\ answers s' i = answers s i ++ [a]) /\ about_to_make s' i cs /\ fy_fs s' = fy_fs s /\
  forall j, j <> i -> fy_thread s' j = fy_thread s j.
Proof.
  intros s [C P] s'. unfold s', fsystem_run. rewrite fold_left_app. cbn [fold_left]. fold (fsystem_run sched (fsystem_start f progs)). fold s.
  unfold fsystem_step, answers, about_to_make. cbn [fst snd]. unfold fthread_step. rewrite C, P. destruct (fy_thread s i) as [cs0 ph an]. cbn [ft_calls ft_phase ft_answers] in *.
  destruct c; cbn [call_step N.eqb not_opened refusal]; cbn [fy_fs fy_thread]; rewrite N.eqb_refl; cbn [ft_calls ft_phase ft_answers];
    (split; [eexists; split; reflexivity|]); (split; [split; reflexivity|]); (split; [reflexivity|]);
    intros j D; now rewrite (proj2 (N.eqb_neq _ _) D).
Qed.
