(** Streams that stop taking bytes. *)
From Coq Require Import List. Import ListNotations.
From Verif Require Import Base BaseFacts Io_Model Io_Proofs File_Model File_Proofs StreamFail_Model StreamFail_Spec.
Local Open Scope N_scope.

Section S.
Variable ev : env.
Implicit Types svs : list (scalar * value).

Lemma bytes_nil : bytes_of ev [] = [].
Proof. reflexivity. Qed.
Lemma bytes_cons s v r : bytes_of ev ((s, v) :: r) = to_mem (machine ev) s v ++ bytes_of ev r.
Proof. unfold bytes_of. now rewrite !stream_writes_app. Qed.

Lemma put_bad takes svs : forall st, od_good st = false -> put_values ev takes svs st = st.
Proof. induction svs as [|[s v] r IH]; intros st H; cbn [put_values]; [reflexivity|]. unfold put_value. rewrite H. now apply IH. Qed.

Lemma put_values_ok takes svs : forall st, od_good st = true ->
  exists k, od_out (put_values ev takes svs st) = od_out st ++ takeN k (bytes_of ev svs) /\ k <= lenN (bytes_of ev svs) /\
    (od_good (put_values ev takes svs st) = true <-> k = lenN (bytes_of ev svs)).
Proof.
  induction svs as [|[s v] r IH]; intros st H; cbn [put_values].
  - exists 0. rewrite bytes_nil, app_nil_r. repeat split; auto. cbn; lia.
  - unfold put_value. rewrite H. set (bs := to_mem (machine ev) s v). set (j := N.min (takes (od_calls st)) (lenN bs)). rewrite bytes_cons. fold bs.
    destruct (j =? lenN bs) eqn:E.
    + destruct (IH (OStrm (od_out st ++ takeN j bs) (od_calls st + 1) true) eq_refl) as (k & A & B & C).
      exists (lenN bs + k). cbn [od_out] in A. rewrite A. apply N.eqb_eq in E. rewrite E, takeN_all by lia.
      rewrite lenN_app. split; [|split; [lia|]].
      * rewrite <- app_assoc. f_equal. unfold takeN. rewrite N2Nat.inj_add. unfold lenN at 1. rewrite Nat2N.id, firstn_app_2. reflexivity.
      * rewrite E, takeN_all in C by lia. rewrite C. lia.
    + rewrite put_bad by reflexivity. exists j. cbn [od_out od_good]. apply N.eqb_neq in E. rewrite lenN_app.
      assert (j < lenN bs) by (unfold j in *; lia). split; [|split; [lia|]].
      * f_equal. unfold takeN. rewrite firstn_app. replace (N.to_nat j - length bs)%nat with 0%nat by (unfold lenN in *; lia). now rewrite app_nil_r.
      * split; [discriminate|lia].
Qed.

Lemma fit_exists svs : forall k, exists m, fit_into ev svs k m.
Proof.
  unfold fit_into. induction svs as [|[s v] r IH]; intros k.
  - exists 0%nat. cbn. repeat split; lia.
  - destruct (N.lt_ge_cases k (lenN (to_mem (machine ev) s v))) as [L|L].
    + exists 0%nat. cbn [firstn]. rewrite bytes_cons, bytes_nil, app_nil_r. cbn. repeat split; lia.
    + destruct (IH (k - lenN (to_mem (machine ev) s v))) as (m & A & B & C). exists (S m). cbn [length]. split; [lia|].
      split; [cbn [firstn]; rewrite bytes_cons, lenN_app; lia|]. intros H. specialize (C ltac:(lia)).
      change (firstn (S (S m)) ((s, v) :: r)) with ((s, v) :: firstn (S m) r). rewrite bytes_cons, lenN_app. lia.
Qed.

Lemma cut_read svs : Forall (fun p => value_ok (fst p) (snd p)) svs -> forall k m, fit_into ev svs k m ->
  read_while_good ev (map fst svs) (IStream (takeN k (bytes_of ev svs)) true) = firstn m (map snd svs) /\
  (is_good (fst (stream_reads ev (map fst svs) (IStream (takeN k (bytes_of ev svs)) true))) = true <-> m = length svs) /\
  firstn m (snd (stream_reads ev (map fst svs) (IStream (takeN k (bytes_of ev svs)) true))) = firstn m (map snd svs).
Proof.
  induction 1 as [|[s v] r Hv F IH]; intros k m (A & B & C); cbn [fst snd] in *.
  - cbn in *. assert (m = 0%nat) by lia. subst. cbn. repeat split; auto.
  - pose proof (lenN_to_mem (machine ev) s v Hv) as L. cbn [map fst snd read_while_good stream_reads]. rewrite bytes_cons in *.
    destruct m as [|m].
    + cbn [firstn length] in C. specialize (C ltac:(lia)). rewrite bytes_cons, bytes_nil, app_nil_r in C.
      rewrite short_stream_read by (rewrite lenN_takeN; lia). cbn [is_good]. rewrite failed_stream_read. cbn. repeat split; auto; discriminate.
    + cbn [firstn] in B. rewrite bytes_cons, lenN_app in B.
      assert (T : takeN k (to_mem (machine ev) s v ++ bytes_of ev r) = to_mem (machine ev) s v ++ takeN (k - lenN (to_mem (machine ev) s v)) (bytes_of ev r)).
      { unfold takeN. rewrite firstn_app. f_equal; [apply firstn_all2; unfold lenN in *; lia|]. f_equal. unfold lenN in *. lia. }
      rewrite T. rewrite enough_stream_read by (rewrite lenN_app; lia). rewrite <- L, dropN_app_exact, takeN_app_exact by reflexivity. cbn [is_good].
      destruct (IH (k - lenN (to_mem (machine ev) s v)) m) as (P & Q & R).
      { cbn [length] in *. split; [lia|]. split; [lia|]. intros H. specialize (C ltac:(lia)).
        change (firstn (S (S m)) ((s, v) :: r)) with ((s, v) :: firstn (S m) r) in C. rewrite bytes_cons, lenN_app in C. lia. }
      rewrite of_to_mem by assumption. rewrite P. destruct (stream_reads ev (map fst r) _) as [st vs]. cbn [fst snd firstn length] in *.
      split; [reflexivity|]. split; [rewrite Q; lia|]. now rewrite R.
Qed.

Lemma stream_survives takes svs : Forall (fun p => value_ok (fst p) (snd p)) svs ->
  let st := put_values ev takes svs (OStrm [] 0 true) in
  exists k m, od_out st = takeN k (bytes_of ev svs) /\ fit_into ev svs k m /\ (od_good st = true <-> od_out st = bytes_of ev svs) /\
    (od_good st = true <-> m = length svs) /\
    read_while_good ev (map fst svs) (IStream (od_out st) true) = firstn m (map snd svs) /\
    (is_good (fst (stream_reads ev (map fst svs) (IStream (od_out st) true))) = true <-> m = length svs).
Proof.
  intros F st. destruct (put_values_ok takes svs (OStrm [] 0 true) eq_refl) as (k & A & B & C). fold st in A, C. cbn [od_out app] in A.
  destruct (fit_exists svs k) as (m & M). exists k, m. destruct (cut_read svs F k m M) as (P & Q & R). rewrite A.
  assert (G : od_good st = true <-> m = length svs).
  { rewrite C. destruct M as (M1 & M2 & M3). split.
    - intros ->. destruct (Nat.eq_dec m (length svs)) as [|NE]; [assumption|]. specialize (M3 ltac:(lia)).
      rewrite <- (firstn_skipn (S m) svs) in M3 at 1. unfold bytes_of in M3. rewrite !stream_writes_app, map_app, concat_app, !lenN_app in M3. lia.
    - intros ->. rewrite firstn_all in M2. lia. }
  split; [reflexivity|]. split; [exact M|]. split; [|split; [exact G|split; [exact P|exact Q]]].
  rewrite C. split; [intros ->; apply takeN_all; lia|]. intros E. apply (f_equal lenN) in E. rewrite lenN_takeN in E. lia.
Qed.
End S.
