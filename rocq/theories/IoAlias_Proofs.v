From Coq Require Import List NArith Lia. Import ListNotations.
From Verif Require Import Base BaseFacts Io_Model IoAlias_Model IoAlias_Spec.
Local Open Scope N_scope.

(** One byte copied. *)
Definition put (buf : list byte) (i : N) (b : byte) : list byte := takeN i buf ++ [b] ++ dropN (i + 1) buf.

Lemma put_length buf i b : i < lenN buf -> lenN (put buf i b) = lenN buf.
Proof. intros H. unfold put. rewrite !lenN_app, lenN_takeN, lenN_dropN, lenN_cons, lenN_nil. lia. Qed.

Lemma at_put buf i b j : i < lenN buf -> at_ (put buf i b) j = if j =? i then Some b else at_ buf j.
Proof.
  intros H. unfold at_, put, takeN, dropN, lenN in *.
  assert (L : length (firstn (N.to_nat i) buf) = N.to_nat i) by (rewrite firstn_length; lia).
  destruct (N.eqb_spec j i) as [->|NE].
  - rewrite nth_error_app2 by lia. rewrite L, Nat.sub_diag. reflexivity.
  - destruct (N.lt_ge_cases j i) as [J|J].
    + rewrite nth_error_app1 by lia. rewrite <- (firstn_skipn (N.to_nat i) buf) at 2. rewrite nth_error_app1 by lia. reflexivity.
    + rewrite nth_error_app2 by lia. rewrite L. destruct (N.to_nat j - N.to_nat i)%nat as [|n] eqn:E; [lia|].
      cbn [app nth_error]. rewrite <- (firstn_skipn (N.to_nat (i + 1)) buf) at 2.
      rewrite nth_error_app2 by (rewrite firstn_length; lia). rewrite firstn_length. f_equal. lia.
Qed.

Lemma at_some buf i : i < lenN buf -> exists b, at_ buf i = Some b.
Proof.
  intros H. unfold at_. destruct (nth_error buf (N.to_nat i)) as [b|] eqn:E; [now exists b|].
  apply nth_error_None in E. unfold lenN in H. lia.
Qed.

Lemma load_at buf i b : i < lenN buf -> at_ buf i = Some b -> load buf i 1 = Ok [b].
Proof.
  intros H E. unfold load. rewrite (proj2 (N.leb_le _ _)) by lia. f_equal. unfold takeN, dropN, at_ in *.
  change (N.to_nat 1) with 1%nat. revert E. generalize (N.to_nat i). clear. intros n. revert buf.
  induction n as [|n IH]; intros [|c buf] E; try discriminate E.
  - cbn in *. congruence.
  - cbn [skipn nth_error] in *. now apply IH.
Qed.

Lemma store_at buf i b : i < lenN buf -> store buf i [b] = Ok (put buf i b).
Proof. intros H. unfold store. rewrite lenN_cons, lenN_nil. rewrite (proj2 (N.leb_le _ _)) by lia. reflexivity. Qed.

Lemma advance_at buf i : i < lenN buf -> advance buf i 1 = Ok (i + 1).
Proof. intros H. unfold advance. now rewrite (proj2 (N.leb_le _ _)) by lia. Qed.

(** The loop as a function on buffers. *)
Fixpoint copy (k : nat) (src dst : N) (buf : list byte) : list byte :=
  match k with
  | O => buf
  | S k' => copy k' (src + 1) (dst + 1) (put buf dst (match at_ buf src with Some b => b | None => x00 end))
  end.

Lemma copy_S k : forall src dst buf,
  copy (S k) src dst buf =
  let c := copy k src dst buf in put c (dst + N.of_nat k) (match at_ c (src + N.of_nat k) with Some b => b | None => x00 end).
Proof.
  induction k as [|k IH]; intros src dst buf.
  - cbn [copy]. cbv zeta. now rewrite !N.add_0_r.
  - change (copy (S (S k)) src dst buf) with (copy (S k) (src + 1) (dst + 1) (put buf dst (match at_ buf src with Some b => b | None => x00 end))).
    rewrite IH. cbv zeta. change (copy (S k) src dst buf) with (copy k (src + 1) (dst + 1) (put buf dst (match at_ buf src with Some b => b | None => x00 end))).
    replace (dst + 1 + N.of_nat k) with (dst + N.of_nat (S k)) by lia.
    now replace (src + 1 + N.of_nat k) with (src + N.of_nat (S k)) by lia.
Qed.

Lemma copy_length k : forall src dst buf, dst + N.of_nat k <= lenN buf -> lenN (copy k src dst buf) = lenN buf.
Proof.
  induction k as [|k IH]; intros src dst buf H; [reflexivity|]. cbn [copy].
  rewrite IH; rewrite put_length by lia; [reflexivity|lia].
Qed.

Lemma write_own_elems_copy k : forall src dst buf done,
  src + N.of_nat k <= lenN buf -> dst + N.of_nat k <= lenN buf -> done + N.of_nat k < size_mod ->
  write_own_elems k src buf dst done = (copy k src dst buf, Ok (done + N.of_nat k)).
Proof.
  induction k as [|k IH]; intros src dst buf done Hs Hd Hn.
  - cbn. now rewrite N.add_0_r.
  - cbn [write_own_elems copy]. destruct (at_some buf src ltac:(lia)) as [b E]. rewrite (load_at buf src b ltac:(lia) E), E.
    rewrite store_at by lia. rewrite advance_at by (rewrite put_length by lia; lia).
    assert (Z : sz_add done 1 = done + 1) by (unfold sz_add; apply N.mod_small; lia).
    rewrite Z. rewrite IH by (rewrite ?put_length by lia; lia). do 2 f_equal. lia.
Qed.

Lemma generate_own_copy k : forall src dst buf,
  src + N.of_nat k <= lenN buf -> dst + N.of_nat k <= lenN buf ->
  generate_own k dst buf src = (copy k src dst buf, Ok tt).
Proof.
  induction k as [|k IH]; intros src dst buf Hs Hd; [reflexivity|].
  cbn [generate_own copy]. destruct (at_some buf src ltac:(lia)) as [b E]. rewrite (load_at buf src b ltac:(lia) E), E.
  rewrite advance_at by lia. rewrite store_at by lia.
  apply IH; rewrite put_length by lia; lia.
Qed.

Lemma copy_outside k : forall src dst buf i, dst + N.of_nat k <= lenN buf ->
  i < dst \/ dst + N.of_nat k <= i -> at_ (copy k src dst buf) i = at_ buf i.
Proof.
  induction k as [|k IH]; intros src dst buf i Hd O; [reflexivity|]. rewrite copy_S. cbv zeta.
  rewrite at_put by (rewrite copy_length by lia; lia). rewrite (proj2 (N.eqb_neq _ _)) by lia. apply IH; lia.
Qed.

Lemma copy_moved k src dst buf : src + N.of_nat k <= lenN buf -> dst + N.of_nat k <= lenN buf ->
  dst <= src \/ src + N.of_nat k <= dst -> moved buf src dst (N.of_nat k) (copy k src dst buf).
Proof.
  intros Hs Hd D. split; [now apply copy_length|]. split; [|intros i O; now apply copy_outside].
  induction k as [|k IH]; intros i Hi; [lia|]. rewrite copy_S. cbv zeta.
  rewrite at_put by (rewrite copy_length by lia; lia).
  destruct (N.eqb_spec (dst + i) (dst + N.of_nat k)) as [E|NE].
  - replace (src + N.of_nat k) with (src + i) by lia.
    rewrite copy_outside by lia. destruct (at_some buf (src + i) ltac:(lia)) as [b ->]. reflexivity.
  - apply IH; lia.
Qed.

Lemma copy_repeated k src dst buf : dst + N.of_nat k <= lenN buf ->
  src < dst -> repeated buf src dst (N.of_nat k) (copy k src dst buf).
Proof.
  intros Hd L. split; [now apply copy_length|]. split; [|intros i O; now apply copy_outside].
  induction k as [k IH] using lt_wf_ind. intros i Hi. destruct k as [|k]; [lia|]. rewrite copy_S. cbv zeta.
  rewrite at_put by (rewrite copy_length by lia; lia).
  destruct (N.eqb_spec (dst + i) (dst + N.of_nat k)) as [E|NE].
  - assert (i = N.of_nat k) as -> by lia.
    assert (R : at_ (copy k src dst buf) (src + N.of_nat k) = at_ buf (src + N.of_nat k mod (dst - src))).
    { destruct (N.lt_ge_cases (N.of_nat k) (dst - src)) as [S0|S0].
      - rewrite N.mod_small by exact S0. apply copy_outside; lia.
      - replace (src + N.of_nat k) with (dst + (N.of_nat k - (dst - src))) by lia.
        rewrite IH by lia. f_equal. f_equal.
        replace (N.of_nat k) with ((N.of_nat k - (dst - src)) + 1 * (dst - src)) at 2 by lia.
        rewrite N.mod_add by lia. reflexivity. }
    rewrite R. pose proof (N.mod_lt (N.of_nat k) (dst - src) ltac:(lia)).
    destruct (at_some buf (src + N.of_nat k mod (dst - src)) ltac:(lia)) as [b ->]. reflexivity.
  - apply IH; lia.
Qed.

(** ** The calls *)

Lemma write_own_spec buf src k : src + k <= lenN buf -> lenN buf < size_mod ->
  exists buf', write_own src k buf = (buf', Ok k) /\ moved buf src 0 k buf'.
Proof.
  intros Hs HL. unfold write_own. rewrite (proj2 (N.ltb_ge _ _)) by lia.
  rewrite write_own_elems_copy by lia. rewrite N2Nat.id. exists (copy (N.to_nat k) src 0 buf).
  split; [now rewrite N.add_0_l|]. pose proof (copy_moved (N.to_nat k) src 0 buf) as C. rewrite N2Nat.id in C. apply C; lia.
Qed.

Lemma write_own_at_run buf src k pos : src + k <= lenN buf -> lenN buf < size_mod -> pos + k <= lenN buf ->
  write_own_at src k pos buf = (copy (N.to_nat k) src pos buf, Ok (pos + k)).
Proof.
  intros Hs HL Hp. unfold write_own_at. cbv zeta.
  replace (sz_add pos k) with (pos + k) by (unfold sz_add; now rewrite N.mod_small by lia).
  rewrite !(proj2 (N.ltb_ge _ _)) by lia. rewrite write_own_elems_copy by lia. rewrite N2Nat.id, N.add_0_l.
  unfold sz_add. now rewrite N.mod_small by lia.
Qed.

Lemma write_own_at_fits buf src k pos : src + k <= lenN buf -> lenN buf < size_mod -> pos + k <= lenN buf ->
  exists buf', write_own_at src k pos buf = (buf', Ok (pos + k)) /\
    if (src <? pos) && (pos <? src + k) then repeated buf src pos k buf' else moved buf src pos k buf'.
Proof.
  intros Hs HL Hp. exists (copy (N.to_nat k) src pos buf). split; [now apply write_own_at_run|].
  pose proof (copy_moved (N.to_nat k) src pos buf) as M. pose proof (copy_repeated (N.to_nat k) src pos buf) as R.
  rewrite N2Nat.id in M, R.
  destruct (N.ltb_spec src pos); destruct (N.ltb_spec pos (src + k)); cbn [andb]; (apply M + apply R); lia.
Qed.

Lemma write_own_at_throws buf src k pos : pos < size_mod -> k < size_mod -> lenN buf < size_mod -> lenN buf < pos + k ->
  exists e, write_own_at src k pos buf = (buf, Throw e).
Proof.
  intros Hp Hk HL H. unfold write_own_at. cbv zeta. unfold sz_add.
  destruct (N.lt_ge_cases (pos + k) size_mod) as [L|L].
  - rewrite N.mod_small by exact L. rewrite (proj2 (N.ltb_ge (pos + k) pos)) by lia.
    rewrite (proj2 (N.ltb_lt (lenN buf) (pos + k))) by lia. now eexists.
  - replace (pos + k) with (pos + k - size_mod + 1 * size_mod) by lia. rewrite N.mod_add by discriminate.
    rewrite N.mod_small by lia. rewrite (proj2 (N.ltb_lt _ pos)) by lia. now eexists.
Qed.

Lemma read_own_at_fits buf dst k pos : dst + k <= lenN buf -> lenN buf < size_mod -> pos + k <= lenN buf ->
  exists buf', read_own_at dst k pos buf = (buf', Ok tt) /\
    if (pos <? dst) && (dst <? pos + k) then repeated buf pos dst k buf' else moved buf pos dst k buf'.
Proof.
  intros Hs HL Hp. exists (copy (N.to_nat k) pos dst buf). split.
  - unfold read_own_at. replace (sz_add pos k) with (pos + k) by (unfold sz_add; now rewrite N.mod_small by lia).
    rewrite !(proj2 (N.ltb_ge _ _)) by lia. apply generate_own_copy; lia.
  - pose proof (copy_moved (N.to_nat k) pos dst buf) as M. pose proof (copy_repeated (N.to_nat k) pos dst buf) as R.
    rewrite N2Nat.id in M, R.
    destruct (N.ltb_spec pos dst); destruct (N.ltb_spec dst (pos + k)); cbn [andb]; (apply M + apply R); lia.
Qed.

Lemma read_own_at_throws buf dst k pos : pos < size_mod -> k < size_mod -> lenN buf < size_mod -> lenN buf < pos + k ->
  exists e, read_own_at dst k pos buf = (buf, Throw e).
Proof.
  intros Hp Hk HL H. unfold read_own_at.
  destruct (_ <? pos); [now eexists|]. destruct (N.ltb_spec (lenN buf) pos); [now eexists|].
  rewrite (proj2 (N.ltb_lt _ _)) by lia. now eexists.
Qed.

(** Agreement with the model of writing separate values. *)
Lemma moved_unique buf src dst k a b : dst + k <= lenN buf -> moved buf src dst k a -> moved buf src dst k b -> a = b.
Proof.
  intros Hd (LA & IA & OA) (LB & IB & OB).
  assert (E : forall i, at_ a i = at_ b i).
  { intros i. destruct (N.lt_ge_cases i dst) as [L|L]; [rewrite OA, OB by lia; reflexivity|].
    destruct (N.lt_ge_cases i (dst + k)) as [M|M]; [|rewrite OA, OB by lia; reflexivity].
    replace i with (dst + (i - dst)) by lia. rewrite IA, IB by lia. reflexivity. }
  clear - E. revert b E. induction a as [|x a IH]; intros [|y b] E.
  - reflexivity.
  - specialize (E 0). discriminate E.
  - specialize (E 0). discriminate E.
  - f_equal; [specialize (E 0); cbn in E; congruence|]. apply IH. intros i. specialize (E (i + 1)). unfold at_ in *.
    replace (N.to_nat (i + 1)) with (S (N.to_nat i)) in E by lia. exact E.
Qed.

Lemma own_refuted : exists buf buf' src pos k, src + k <= lenN buf /\ write_own_at src k pos buf = (buf', Ok (pos + k)) /\
  ~ moved buf src pos k buf' /\ exists buf'', read_own_at pos k src buf = (buf'', Ok tt) /\ ~ moved buf src pos k buf''.
Proof.
  exists [x01; x02; x03; x04], [x01; x01; x01; x01], 0, 1, 3. split; [vm_compute; discriminate|]. split; [vm_compute; reflexivity|]. split.
  - intros (_ & H & _). specialize (H 1 ltac:(reflexivity)). discriminate H.
  - exists [x01; x01; x01; x01]. split; [vm_compute; reflexivity|].
    intros (_ & H & _). specialize (H 1 ltac:(reflexivity)). discriminate H.
Qed.

Lemma own_too_long buf src k pos : pos < size_mod -> k < size_mod -> lenN buf < size_mod -> lenN buf < pos + k ->
  (exists e, write_own_at src k pos buf = (buf, Throw e)) /\ (exists e, read_own_at src k pos buf = (buf, Throw e)).
Proof. intros. split; [now apply write_own_at_throws|now apply read_own_at_throws]. Qed.
