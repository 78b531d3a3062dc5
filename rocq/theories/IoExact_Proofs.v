(** What the position-taking non-throwing calls do for every position and every size. *)
From Coq Require Import List. Import ListNotations.
From Verif Require Import Base BaseFacts Io_Model Io_Spec Io_Proofs IoRead_Proofs Io_PropLemmas IoOverrun_Proofs.

Lemma empty_range_exact ev t pos buf : pos < size_mod -> lenN buf < size_mod ->
  read_range_at ev t 0 pos buf = (if pos <=? lenN buf then Ok [] else Throw out_of_range) /\
  try_read_range_at ev t 0 pos buf = Ok (if pos <? lenN buf then RVal [] else RErr rd_insufficient_buffer).
Proof.
  intros Hp Hb.
  assert (Z : N.of_nat 0 * value_size t < size_mod) by (rewrite size_mod_val; lia).
  split.
  - rewrite read_range_at_char by assumption. rewrite (proj2 (N.leb_gt _ _)) by lia.
    change (N.of_nat 0 * value_size t) with 0. rewrite N.add_0_r.
    destruct (N.ltb_spec (lenN buf) pos); destruct (N.leb_spec pos (lenN buf)); try lia; reflexivity.
  - rewrite try_read_range_at_char by assumption. rewrite (proj2 (N.leb_gt _ _)) by lia.
    change (N.of_nat 0 * value_size t) with 0. rewrite N.add_0_r.
    destruct (N.leb_spec (lenN buf) pos); destruct (N.ltb_spec pos (lenN buf)); try lia; cbn [orb]; [reflexivity|].
    now rewrite (proj2 (N.ltb_ge _ _)) by lia.
Qed.

Lemma try_read_at_exact ev ts pos buf : Forall vtype_ok ts -> Forall (fun t => value_size t < size_mod) ts ->
  lenN buf < size_mod -> pos < size_mod ->
  exists rs, try_read_at ev ts pos buf = Ok rs /\ length rs = length ts /\
    forall i t r, nth_error ts i = Some t -> nth_error rs i = Some r ->
      let q := (pos + types_size (firstn i ts)) mod size_mod in
      (size_mod <= q + value_size t -> r = RErr rd_invalid_position_offset) /\
      (q + value_size t < size_mod -> lenN buf < q + value_size t -> r = RErr rd_insufficient_buffer) /\
      (q + value_size t <= lenN buf -> exists v, r = RVal v /\ decodes ev [t] (slice buf q (value_size t)) [v]).
Proof.
  intros Hok Hsz Hb. revert pos Hsz.
  assert (Z : size_mod <> 0) by now rewrite size_mod_val.
  induction Hok as [|t ts Ht Hts IH]; intros pos Hsz Hp.
  - exists []. repeat split; destruct i; discriminate.
  - inversion Hsz as [|? ? Hst Hsts]; subst. cbn [try_read_at].
    rewrite try_read_at1_char by assumption. cbn [obind].
    destruct (IH (sz_add pos (value_size t)) Hsts) as (rs & E & L & H).
    { unfold sz_add. apply N.mod_lt. exact Z. }
    rewrite E. cbn [obind]. eexists. split; [reflexivity|]. split; [cbn [length]; now rewrite L|].
    intros [|i] t' r' Ht' Hr'; cbn [nth_error firstn] in *.
    + injection Ht' as <-. injection Hr' as <-. change (types_size []) with 0. rewrite N.add_0_r, N.mod_small by exact Hp.
      split; [|split].
      * intros W. now rewrite (proj2 (N.leb_le _ _) W).
      * intros W O. rewrite (proj2 (N.leb_gt _ _) W). now rewrite (proj2 (N.ltb_lt _ _) O).
      * intros O. rewrite (proj2 (N.leb_gt _ _)) by lia. rewrite (proj2 (N.ltb_ge _ _)) by lia.
        eexists. split; [reflexivity|].
        assert (Hl : lenN (slice buf pos (value_size t)) = value_size t).
        { unfold slice. rewrite lenN_takeN, lenN_dropN. lia. }
        pose proof (decode_all_decodes ev [t] ltac:(now constructor) (slice buf pos (value_size t))) as D.
        rewrite types_size_1 in D. specialize (D Hl). cbn [decode_all] in D.
        rewrite takeN_all in D by lia. exact D.
    + specialize (H i t' r' Ht' Hr'). cbv zeta in H.
      rewrite types_size_cons. unfold sz_add in H. rewrite N.add_mod_idemp_l in H by exact Z.
      rewrite N.add_assoc. exact H.
Qed.

(** ** try_write and try_write_at with any sizes *)

Lemma overwritten_unique buf pos bs a b : overwritten buf pos bs a -> overwritten buf pos bs b -> a = b.
Proof.
  intros [_ A] [_ B]. apply nth_error_ext. intros i. now rewrite A, B.
Qed.

Lemma overwritten_nil buf pos : overwritten buf pos [] buf.
Proof.
  split; [reflexivity|]. intros i. change (lenN []) with 0. rewrite N.add_0_r.
  destruct (N.ltb_spec (N.of_nat i) pos); destruct (N.leb_spec pos (N.of_nat i)); try lia; reflexivity.
Qed.


Lemma arg_size_mod a : (forall t v, a = AVal t v -> value_size t < size_mod) -> arg_size a = arg_bytes a mod size_mod.
Proof.
  intros H. destruct a as [t v|s vs]; cbn [arg_size arg_bytes]; [|reflexivity].
  now rewrite N.mod_small by (eapply H; reflexivity).
Qed.

Definition small_types (args : list warg) : Prop := forall t v, In (AVal t v) args -> value_size t < size_mod.

Lemma mod_le_self n : n mod size_mod <= n.
Proof. apply N.mod_le. now rewrite size_mod_val. Qed.

Lemma try_write1_exact ev a buf : arg_ok a -> arg_size a = arg_bytes a mod size_mod -> lenN buf < size_mod ->
  let n := arg_bytes a mod size_mod in
  (lenN buf < n -> try_write1 ev a buf = (buf, Ok (RErr wr_insufficient_buffer))) /\
  (arg_bytes a <= lenN buf -> try_write1 ev a buf = (splice buf 0 (enc_arg ev a), Ok (RVal (arg_bytes a)))) /\
  (n <= lenN buf -> lenN buf < arg_bytes a -> snd (try_write1 ev a buf) = UB).
Proof.
  intros Hok Hs Hb n. unfold try_write1. rewrite Hs. fold n. pose proof (mod_le_self (arg_bytes a)) as M. fold n in M.
  split; [|split].
  - intros H. now rewrite (proj2 (N.ltb_lt _ _) H).
  - intros H. rewrite (proj2 (N.ltb_ge _ _)) by lia. now rewrite unchecked_write_ok by (try assumption; lia).
  - intros H H1. rewrite (proj2 (N.ltb_ge _ _)) by lia.
    pose proof (unchecked_write_over ev a buf 0 Hok ltac:(lia) ltac:(lia)) as U.
    destruct (unchecked_write ev a buf 0) as [b o]. cbn [snd] in U. now subst o.
Qed.

Lemma try_write_at1_exact ev a pos buf : arg_ok a -> arg_size a = arg_bytes a mod size_mod -> lenN buf < size_mod -> pos < size_mod ->
  let n := arg_bytes a mod size_mod in
  (size_mod <= pos + n -> try_write_at1 ev a pos buf = (buf, Ok (RErr wr_invalid_position_offset))) /\
  (pos + n < size_mod -> lenN buf <= pos \/ lenN buf < pos + n -> try_write_at1 ev a pos buf = (buf, Ok (RErr wr_insufficient_buffer))) /\
  (pos < lenN buf -> pos + arg_bytes a <= lenN buf ->
     try_write_at1 ev a pos buf = (splice buf pos (enc_arg ev a), Ok (RVal (pos + arg_bytes a)))) /\
  (pos < lenN buf -> pos + n <= lenN buf -> lenN buf < pos + arg_bytes a -> snd (try_write_at1 ev a pos buf) = UB).
Proof.
  intros Hok Hs Hb Hp n. pose proof (mod_le_self (arg_bytes a)) as M. fold n in M.
  assert (Hn : n < size_mod) by (apply N.mod_lt; now rewrite size_mod_val).
  pose proof (sz_add_wraps pos n Hp Hn) as W.
  unfold try_write_at1. rewrite Hs. fold n.
  destruct (N.leb_spec size_mod (pos + n)) as [G|G].
  - rewrite (proj2 (N.ltb_lt _ _)) by (apply W; lia). split; [reflexivity|]. split; [lia|]. split; lia.
  - rewrite (proj2 (N.ltb_ge _ _)) by lia. split; [lia|].
    destruct (N.leb_spec (lenN buf) pos) as [P|P]; [split; [reflexivity|]; split; lia|].
    pose proof (try_write1_exact ev a (dropN pos buf) Hok Hs ltac:(rewrite lenN_dropN; lia)) as (A & B & C).
    rewrite lenN_dropN in A, B, C. fold n in A, C.
    unfold on_span. rewrite span_ok by lia. split; [|split].
    + intros _ [X|X]; [lia|]. rewrite A by lia. now rewrite takeN_dropN.
    + intros _ X. rewrite B by lia. rewrite on_span_splice by (rewrite lenN_enc_arg by assumption; lia).
      now rewrite sz_add_small by lia.
    + intros _ X Y. specialize (C ltac:(lia) ltac:(lia)).
      destruct (try_write1 ev a (dropN pos buf)) as [b o]. cbn [snd] in C. now subst o.
Qed.

Lemma try_write_at_any ev args pos buf :
  args <> [] -> Forall arg_ok args -> small_types args -> pos < size_mod -> lenN buf < size_mod ->
  exists pre rest bs buf',
    args = pre ++ rest /\
    (forall a x b, pre = a ++ x :: b -> pos + args_size a < lenN buf /\ pos + args_size a + arg_bytes x <= lenN buf) /\
    args_encoding ev pre bs /\ overwritten buf pos bs buf' /\
    match rest with
    | [] => try_write_at ev args pos buf = (buf', Ok (RVal (pos + args_size args)))
    | x :: _ =>
        let p := pos + args_size pre in
        let n := arg_bytes x mod size_mod in
        (size_mod <= p + n -> try_write_at ev args pos buf = (buf', Ok (RErr wr_invalid_position_offset))) /\
        (p + n < size_mod -> lenN buf <= p \/ lenN buf < p + n ->
           try_write_at ev args pos buf = (buf', Ok (RErr wr_insufficient_buffer))) /\
        (p < lenN buf -> p + n <= lenN buf -> lenN buf < p + arg_bytes x /\ snd (try_write_at ev args pos buf) = UB)
    end.
Proof.
  intros Hne Hok. revert pos buf. induction Hok as [|x r Hx Hr IH]; [easy|]. intros pos buf Hsm Hp Hb.
  assert (Hs : arg_size x = arg_bytes x mod size_mod).
  { apply arg_size_mod. intros t v ->. eapply Hsm. now left. }
  pose proof (try_write_at1_exact ev x pos buf Hx Hs Hb Hp) as (A & B & C & D). cbn [try_write_at].
  pose proof (mod_le_self (arg_bytes x)) as M.
  destruct (N.ltb_spec pos (lenN buf)) as [P|P]; [destruct (N.leb_spec (pos + arg_bytes x) (lenN buf)) as [Q|Q]|].
  - rewrite (C P Q). destruct r as [|y r].
    + exists [x], [], (enc_args ev [x]), (splice buf pos (enc_args ev [x])). split; [reflexivity|]. split.
      { intros a z b E. destruct a as [|a0 [|a1 a]]; cbn [app] in E; injection E as <- E; try discriminate.
        change (args_size []) with 0. lia. }
      split; [apply args_encoding_enc; now constructor|].
      rewrite enc_args_1. split; [apply splice_overwritten; rewrite lenN_enc_arg by assumption; lia|].
      now rewrite args_size_1.
    + assert (Hl : lenN (splice buf pos (enc_arg ev x)) = lenN buf) by (apply lenN_splice; rewrite lenN_enc_arg by assumption; lia).
      destruct (IH ltac:(discriminate) (pos + arg_bytes x) (splice buf pos (enc_arg ev x))) as (pre & rest & bs & buf' & E & F & G & O & R);
        [intros t v I; eapply Hsm; right; exact I|lia|lia|].
      rewrite Hl in *.
      assert (Hpo : Forall arg_ok pre) by (rewrite E in Hr; now apply Forall_app in Hr).
      apply args_encoding_eq in G; [|exact Hpo]. subst bs.
      assert (Hfit : pos + arg_bytes x + args_size pre <= lenN buf).
      { destruct pre as [|z pre] using rev_ind; [change (args_size []) with 0; lia|].
        specialize (F pre z [] eq_refl). rewrite args_size_app, args_size_1. lia. }
      assert (Eb : buf' = splice buf pos (enc_args ev (x :: pre))).
      { change (enc_args ev (x :: pre)) with (enc_arg ev x ++ enc_args ev pre).
        rewrite <- splice_splice by (rewrite lenN_enc_arg, lenN_enc_args by assumption; lia).
        rewrite lenN_enc_arg by assumption.
        eapply overwritten_unique; [exact O|]. apply splice_overwritten. rewrite Hl, lenN_enc_args by assumption. lia. }
      exists (x :: pre), rest, (enc_args ev (x :: pre)), buf'. split; [cbn [app]; now rewrite <- E|]. split.
      { intros [|z a] w b X; cbn [app] in X; injection X as <- X.
        - change (args_size []) with 0. lia.
        - specialize (F a w b X). change (args_size (x :: a)) with (arg_bytes x + args_size a). lia. }
      split; [apply args_encoding_enc; now constructor|]. split.
      { rewrite Eb. apply splice_overwritten. rewrite lenN_enc_args by now constructor.
        change (args_size (x :: pre)) with (arg_bytes x + args_size pre). lia. }
      change (args_size (x :: y :: r)) with (arg_bytes x + args_size (y :: r)).
      change (args_size (x :: pre)) with (arg_bytes x + args_size pre). rewrite !N.add_assoc. exact R.
  - exists [], (x :: r), [], buf. split; [reflexivity|]. split; [intros [|] ? ? ?; discriminate|].
    split; [exists []; split; [constructor|reflexivity]|]. split; [apply overwritten_nil|].
    change (args_size []) with 0. rewrite N.add_0_r. cbv zeta. split; [|split].
    + intros X. now rewrite A.
    + intros X Y. now rewrite B.
    + intros _ X. split; [lia|]. specialize (D P X ltac:(lia)).
      destruct (try_write_at1 ev x pos buf) as [b o]. cbn [snd] in D. now subst o.
  - exists [], (x :: r), [], buf. split; [reflexivity|]. split; [intros [|] ? ? ?; discriminate|].
    split; [exists []; split; [constructor|reflexivity]|]. split; [apply overwritten_nil|].
    change (args_size []) with 0. rewrite N.add_0_r. cbv zeta. split; [|split].
    + intros X. now rewrite A.
    + intros X Y. now rewrite B.
    + lia.
Qed.

Lemma try_write_any ev args buf :
  args <> [] -> Forall arg_ok args -> small_types args -> lenN buf < size_mod ->
  exists pre rest bs buf',
    args = pre ++ rest /\ args_size pre <= lenN buf /\
    args_encoding ev pre bs /\ overwritten buf 0 bs buf' /\
    match rest with
    | [] => try_write ev args buf = (buf', Ok (RVal (args_size args)))
    | x :: _ =>
        let p := args_size pre in
        let n := arg_bytes x mod size_mod in
        lenN buf < p + arg_bytes x /\
        (lenN buf < p + n -> try_write ev args buf = (buf', Ok (RErr wr_insufficient_buffer))) /\
        (p + n <= lenN buf -> snd (try_write ev args buf) = UB)
    end.
Proof.
  intros Hne Hok. revert buf. induction Hok as [|x r Hx Hr IH]; [easy|]. intros buf Hsm Hb.
  assert (Hs : arg_size x = arg_bytes x mod size_mod).
  { apply arg_size_mod. intros t v ->. eapply Hsm. now left. }
  pose proof (try_write1_exact ev x buf Hx Hs Hb) as (A & B & C). cbn [try_write].
  pose proof (mod_le_self (arg_bytes x)) as M.
  destruct (N.leb_spec (arg_bytes x) (lenN buf)) as [Q|Q].
  - rewrite (B Q). destruct r as [|y r].
    + exists [x], [], (enc_args ev [x]), (splice buf 0 (enc_args ev [x])). split; [reflexivity|].
      rewrite args_size_1. split; [lia|].
      split; [apply args_encoding_enc; now constructor|].
      rewrite enc_args_1. split; [apply splice_overwritten; rewrite lenN_enc_arg by assumption; lia|reflexivity].
    + rewrite Hs, N.mod_small by lia.
      set (b1 := splice buf 0 (enc_arg ev x)) in *.
      assert (Hl : lenN b1 = lenN buf) by (apply lenN_splice; rewrite lenN_enc_arg by assumption; lia).
      destruct (IH ltac:(discriminate) (dropN (arg_bytes x) b1)) as (pre & rest & bs & buf' & E & F & G & O & R);
        [intros t v I; eapply Hsm; right; exact I|rewrite lenN_dropN; lia|].
      rewrite lenN_dropN, Hl in *.
      assert (Hpo : Forall arg_ok pre) by (rewrite E in Hr; now apply Forall_app in Hr).
      apply args_encoding_eq in G; [|exact Hpo]. subst bs.
      assert (Eb : buf' = splice (dropN (arg_bytes x) b1) 0 (enc_args ev pre)).
      { eapply overwritten_unique; [exact O|]. apply splice_overwritten. rewrite lenN_dropN, Hl, lenN_enc_args by assumption. lia. }
      assert (Ew : takeN (arg_bytes x) b1 ++ buf' = splice buf 0 (enc_args ev (x :: pre))).
      { rewrite Eb, on_span_splice by (rewrite Hl, lenN_enc_args by assumption; lia).
        unfold b1. change (enc_args ev (x :: pre)) with (enc_arg ev x ++ enc_args ev pre).
        rewrite <- splice_splice by (rewrite lenN_enc_arg, lenN_enc_args by assumption; lia).
        now rewrite lenN_enc_arg by assumption. }
      exists (x :: pre), rest, (enc_args ev (x :: pre)), (takeN (arg_bytes x) b1 ++ buf'). split; [cbn [app]; now rewrite <- E|].
      change (args_size (x :: pre)) with (arg_bytes x + args_size pre).
      split; [lia|]. split; [apply args_encoding_enc; now constructor|]. split.
      { rewrite Ew. apply splice_overwritten. rewrite lenN_enc_args by now constructor.
        change (args_size (x :: pre)) with (arg_bytes x + args_size pre). lia. }
      unfold on_span. rewrite span_ok by lia.
      destruct rest as [|z rest].
      * rewrite R. change (args_size (x :: y :: r)) with (arg_bytes x + args_size (y :: r)).
        rewrite sz_add_small; [reflexivity|]. rewrite app_nil_r in E. rewrite E. lia.
      * cbv zeta in *. destruct R as (R1 & R2 & R3). split; [lia|]. split.
        { intros X. now rewrite R2 by lia. }
        intros X. specialize (R3 ltac:(lia)).
        destruct (try_write ev (y :: r) (dropN (arg_bytes x) b1)) as [b o]. cbn [snd] in R3. now subst o.
  - exists [], (x :: r), [], buf. split; [reflexivity|]. split; [change (args_size []) with 0; lia|].
    split; [exists []; split; [constructor|reflexivity]|]. split; [apply overwritten_nil|].
    change (args_size []) with 0. rewrite N.add_0_l. cbv zeta. split; [lia|]. split.
    + intros X. now rewrite A.
    + intros X. specialize (C X Q). destruct (try_write1 ev x buf) as [b o]. cbn [snd] in C. now subst o.
Qed.
