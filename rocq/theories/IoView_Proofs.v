From Verif Require Import Base BaseFacts Io_Model Io_Spec Io_Proofs IoRead_Proofs IoView_Model IoView_Spec.
Ltac Zify.zify_post_hook ::= Z.div_mod_to_equations.

Lemma advance_signed_ok len pos n : n < 2 ^ 63 -> pos + n <= len ->
  advance_signed len pos (to_ptrdiff n) = Ok (pos + n).
Proof.
  intros Hn H. unfold advance_signed, to_ptrdiff. rewrite (proj2 (N.ltb_lt _ _) Hn).
  rewrite (proj2 (Z.leb_le _ _)), (proj2 (Z.leb_le _ _)) by lia. cbn [andb]. f_equal. lia.
Qed.

Lemma rv_advance_ok st n : n < 2 ^ 63 -> rv_pos st + n <= lenN (rv_data st) ->
  rv_advance st n = Ok (RView (rv_data st) (rv_pos st + n)).
Proof. intros Hn H. unfold rv_advance. now rewrite advance_signed_ok. Qed.

(** Calls C++ lets one make: real types, total sizes representable as ptrdiff_t. *)
Lemma ptr_max_lt : ptr_max < size_mod. Proof. reflexivity. Qed.

Lemma length_decode_all ev ts bs : length (decode_all ev ts bs) = length ts.
Proof. revert bs; induction ts as [|t r IH]; intros bs; cbn; [reflexivity|now rewrite IH]. Qed.

Lemma lenN_decode_range ev t k bs : lenN (decode_range ev t k bs) = N.of_nat k.
Proof. unfold lenN, decode_range. now rewrite length_decode_all, repeat_length. Qed.

Definition rv_inv (st : rview) : Prop := rv_pos st <= lenN (rv_data st).

Lemma lenN_rv_rest st : lenN (rv_rest st) = lenN (rv_data st) - rv_pos st.
Proof. unfold rv_rest. apply lenN_dropN. Qed.

(** Exact effect of every operation in a good state. *)
Lemma rv_step_char ev st op : rv_inv st -> lenN (rv_data st) < size_mod -> rop_ok op ->
  let len := lenN (rv_data st) in
  let at_ p := RView (rv_data st) p in
  rv_step ev st op =
    match op with
    | RSeek p => if len <? p then (st, Throw out_of_range) else (at_ p, Ok ROUnit)
    | RTrySeek p => if len <? p then (st, Ok (ROSeek (RErr rd_invalid_position_offset)))
                    else (at_ p, Ok (ROSeek (RVal true)))
    | RRead ts => if len <? rv_pos st + types_size ts then (st, Throw out_of_range)
                  else (at_ (rv_pos st + types_size ts), Ok (ROVals (decode_all ev ts (rv_rest st))))
    | RReadRange t k => let n := N.of_nat k * value_size t in
                  if len <? rv_pos st + n then (st, Throw out_of_range)
                  else (at_ (rv_pos st + n), Ok (ROVals (decode_range ev t k (rv_rest st))))
    | RReadEndian n sg e => if len <? rv_pos st + N.of_nat n then (st, Throw out_of_range)
                  else (at_ (rv_pos st + N.of_nat n), Ok (ROVals (decode_all ev [TEnc e n sg] (rv_rest st))))
    | RTryRead ts => let j := fit_count ts (len - rv_pos st) in
                  (at_ (N.min len (rv_pos st + types_size ts)),
                   Ok (ROTry (map RVal (decode_all ev (firstn j ts) (rv_rest st))
                           ++ repeat (RErr rd_insufficient_buffer) (length ts - j))))
    | RTryReadRange t k => let n := N.of_nat k * value_size t in
                  if len <? rv_pos st + n then (at_ len, Ok (ROTryRange (RErr rd_insufficient_buffer)))
                  else (at_ (rv_pos st + n), Ok (ROTryRange (RVal (decode_range ev t k (rv_rest st)))))
    end.
Proof.
  intros Hi Hlen Hop len at_. unfold rv_inv in Hi. pose proof (lenN_rv_rest st) as Hrest. fold len in Hrest, Hi.
  assert (Hpm : ptr_max = 2 ^ 63) by reflexivity. pose proof ptr_max_lt as Hps.
  destruct op as [p|p|ts|t k|n sg e|ts|t k]; cbn [rv_step rop_ok] in *; try reflexivity.
  - destruct Hop as (_ & Hts & Hsz). rewrite read_char by lia. rewrite Hrest.
    destruct (N.ltb_spec (len - rv_pos st) (types_size ts)); destruct (N.ltb_spec len (rv_pos st + types_size ts)); try lia; [reflexivity|].
    cbn [with_state]. rewrite byte_count_ty_small by lia. rewrite rv_advance_ok; [reflexivity|lia|fold len; lia].
  - destruct Hop as (Hs & Hsz). rewrite read_range_char by lia. rewrite Hrest. cbn zeta.
    set (n := N.of_nat k * value_size t) in *.
    destruct (N.ltb_spec (len - rv_pos st) n); destruct (N.ltb_spec len (rv_pos st + n)); try lia; [reflexivity|].
    cbn [with_state]. rewrite lenN_decode_range, range_bytes_small by (subst n; lia).
    rewrite rv_advance_ok; [reflexivity|fold n; lia|fold len n; lia].
  - destruct Hop as (Hn & Hsz). unfold read_with_endian.
    assert (Hty : match e with little => TEnc little n sg | big => TEnc big n sg end = TEnc e n sg) by now destruct e.
    rewrite Hty. assert (Hts : types_size [TEnc e n sg] = N.of_nat n) by (unfold types_size, value_size; cbn; lia).
    rewrite read_char by lia. rewrite Hts, Hrest.
    destruct (N.ltb_spec (len - rv_pos st) (N.of_nat n)); destruct (N.ltb_spec len (rv_pos st + N.of_nat n)); try lia; [reflexivity|].
    cbn [with_state]. unfold value_size. cbn [scalar_of scalar_bytes].
    rewrite rv_advance_ok; [reflexivity|lia|fold len; lia].
  - destruct Hop as (_ & Hts & Hsz). rewrite try_read_char by exact Hts. rewrite Hrest. cbn [with_state].
    rewrite byte_count_ty_small by lia.
    unfold advance_signed, to_ptrdiff. rewrite (proj2 (N.ltb_lt _ _)) by lia. fold len.
    rewrite (proj2 (Z.leb_le _ _)), (proj2 (Z.leb_le _ _)) by lia. cbn [andb obind].
    unfold at_. f_equal. f_equal. lia.
  - destruct Hop as (Hs & Hsz). rewrite try_read_range_char by lia. rewrite Hrest. cbn zeta.
    set (n := N.of_nat k * value_size t) in *.
    destruct (N.ltb_spec (len - rv_pos st) n); destruct (N.ltb_spec len (rv_pos st + n)); try lia; [reflexivity|].
    cbn [with_state]. rewrite lenN_decode_range, range_bytes_small by (subst n; lia).
    rewrite rv_advance_ok; [reflexivity|fold n; lia|fold len n; lia].
Qed.

Definition defined {A} (o : outcome A) : Prop :=
  match o with Ok _ | Throw _ => True | _ => False end.

Lemma rv_step_inv ev st op : rv_inv st -> lenN (rv_data st) < size_mod -> rop_ok op ->
  rv_inv (fst (rv_step ev st op)) /\ rv_data (fst (rv_step ev st op)) = rv_data st /\
  defined (snd (rv_step ev st op)).
Proof.
  intros Hi Hlen Hop. rewrite rv_step_char by assumption. unfold rv_inv in *.
  destruct op as [p|p|ts|t k|n sg e|ts|t k]; cbn zeta;
    try match goal with |- context [?a <? ?b] => destruct (N.ltb_spec a b) end;
    cbn [fst snd rv_pos rv_data defined]; repeat split; auto; try lia.
Qed.

Lemma rv_run_inv ev ops : forall st, rv_inv st -> lenN (rv_data st) < size_mod -> Forall rop_ok ops ->
  rv_inv (fst (rv_run ev st ops)) /\ rv_data (fst (rv_run ev st ops)) = rv_data st /\
  Forall defined (snd (rv_run ev st ops)).
Proof.
  induction ops as [|op r IH]; intros st Hi Hlen Hops; [cbn; auto|].
  inversion Hops as [|? ? Hop Hr]; subst.
  destruct (rv_step_inv ev st op Hi Hlen Hop) as (A & B & C). cbn [rv_run].
  destruct (rv_step ev st op) as [st' o]. cbn [fst snd] in *.
  specialize (IH st' A ltac:(rewrite B; exact Hlen) Hr). destruct (rv_run ev st' r) as [st'' os]. cbn [fst snd] in *.
  destruct IH as (D & E & F). repeat split; [exact D|congruence|constructor; assumption].
Qed.

Lemma decode_all_app ev ts1 ts2 bs : types_size ts1 <= lenN bs ->
  decode_all ev (ts1 ++ ts2) bs = decode_all ev ts1 bs ++ decode_all ev ts2 (dropN (types_size ts1) bs).
Proof.
  revert bs; induction ts1 as [|t r IH]; intros bs H; [reflexivity|].
  rewrite types_size_cons in *. cbn [app decode_all]. f_equal. rewrite IH by (rewrite lenN_dropN; lia).
  rewrite dropN_dropN. do 3 f_equal. lia.
Qed.

Lemma types_size_app a b : types_size (a ++ b) = types_size a + types_size b.
Proof. induction a as [|t r IH]; [reflexivity|]. cbn [app]. rewrite !types_size_cons, IH. lia. Qed.


(** A sequence of successful reads. *)
Lemma rv_reads_concat ev tss : forall st outs st',
  rv_inv st -> lenN (rv_data st) < size_mod -> Forall (fun ts => rop_ok (RRead ts)) tss ->
  rv_run ev st (map RRead tss) = (st', map (fun vs => Ok (ROVals vs)) outs) ->
  decode_all ev (concat tss) (rv_rest st) = concat outs /\
  rv_pos st' = rv_pos st + types_size (concat tss) /\ rv_pos st' <= lenN (rv_data st).
Proof.
  induction tss as [|ts r IH]; intros st outs st' Hi Hlen Hok E.
  - cbn in E. destruct outs; [|discriminate]. injection E as <-. cbn [concat decode_all]. change (types_size []) with 0. unfold rv_inv in Hi. repeat split; lia.
  - inversion Hok as [|? ? Hop Hr]; subst. cbn [map rv_run] in E.
    rewrite rv_step_char in E by assumption. cbn zeta in E.
    destruct (N.ltb_spec (lenN (rv_data st)) (rv_pos st + types_size ts)) as [L|L].
    + destruct (rv_run ev st (map RRead r)); destruct outs; discriminate.
    + set (st1 := RView (rv_data st) (rv_pos st + types_size ts)) in *.
      destruct (rv_run ev st1 (map RRead r)) as [st2 os] eqn:E1. destruct outs as [|o outs]; [discriminate|].
      cbn [map] in E. injection E as E2 E3 E4. subst st2 os.
      destruct (IH st1 outs st') as (A & B & C); [exact L|exact Hlen|exact Hr|exact E1|].
      cbn [concat]. rewrite decode_all_app by (rewrite lenN_rv_rest; lia).
      rewrite types_size_app. unfold st1 in B, C. cbn [rv_pos rv_data] in B, C. repeat split; [|lia|lia].
      rewrite E3. f_equal. rewrite <- A. f_equal. unfold rv_rest. subst st1. cbn [rv_pos rv_data].
      rewrite dropN_dropN. f_equal. lia.
Qed.

(** ** Write views *)

Definition wv_inv (st : wview) : Prop := wv_pos st <= lenN (wv_data st).

Definition write_endian_arg n sg z e : warg := AVal (TEnc e n sg) (VInt z).

Lemma wv_write_char ev st args : wv_inv st -> lenN (wv_data st) < ptr_max -> Forall arg_ok args -> args_size args < ptr_max ->
  wv_finish (wv_pos st) (on_span (wv_data st) (wv_pos st) (write ev args)) WOCount =
    if lenN (wv_data st) <? wv_pos st + args_size args then (st, Throw out_of_range)
    else (WView (splice (wv_data st) (wv_pos st) (enc_args ev args)) (wv_pos st + args_size args),
          Ok (WOCount (args_size args))).
Proof.
  intros Hi Hlen Hok Hsz. unfold wv_inv in Hi. pose proof ptr_max_lt. assert (Hpm : ptr_max = 2 ^ 63) by reflexivity.
  pose proof (lenN_enc_args ev args Hok) as Hl.
  unfold on_span. rewrite span_ok by exact Hi.
  rewrite write_char by (try exact Hok; rewrite ?lenN_dropN; lia). rewrite lenN_dropN.
  destruct (N.ltb_spec (lenN (wv_data st) - wv_pos st) (args_size args));
    destruct (N.ltb_spec (lenN (wv_data st)) (wv_pos st + args_size args)); try lia.
  - cbn [wv_finish]. rewrite takeN_dropN. now destruct st.
  - rewrite on_span_splice by lia. cbn [wv_finish].
    rewrite advance_signed_ok; [reflexivity|lia|rewrite lenN_splice; lia].
Qed.

Lemma wv_trywrite_char ev st args : wv_inv st -> lenN (wv_data st) < ptr_max -> args <> [] -> Forall arg_ok args -> args_size args < ptr_max ->
  wv_step ev st (WTryWrite args) =
    let room := lenN (wv_data st) - wv_pos st in
    let data' := splice (wv_data st) (wv_pos st) (enc_args ev (fit_prefix args room)) in
    if lenN (wv_data st) <? wv_pos st + args_size args
    then (WView data' (wv_pos st), Ok (WOTry (RErr wr_insufficient_buffer)))
    else (WView data' (wv_pos st + args_size args), Ok (WOTry (RVal (args_size args)))).
Proof.
  intros Hi Hlen Hne Hok Hsz. unfold wv_inv in Hi. pose proof ptr_max_lt. assert (Hpm : ptr_max = 2 ^ 63) by reflexivity.
  pose proof (lenN_enc_args ev _ (fit_prefix_ok args (lenN (wv_data st) - wv_pos st) Hok)) as Hl.
  pose proof (fit_prefix_size args (lenN (wv_data st) - wv_pos st)) as Hf.
  cbn [wv_step]. unfold on_span. rewrite span_ok by exact Hi.
  rewrite try_write_char; [|exact Hne|exact Hok| |rewrite lenN_dropN; lia].
  2: { clear - Hsz H. induction args as [|a r IH]; constructor; change (args_size (a :: r)) with (arg_bytes a + args_size r) in Hsz; [lia|apply IH; lia]. }
  rewrite lenN_dropN. rewrite on_span_splice by lia. cbn zeta.
  destruct (N.ltb_spec (lenN (wv_data st) - wv_pos st) (args_size args));
    destruct (N.ltb_spec (lenN (wv_data st)) (wv_pos st + args_size args)); try lia.
  - reflexivity.
  - cbn [wv_finish]. rewrite advance_signed_ok; [reflexivity|lia|rewrite lenN_splice; lia].
Qed.

Lemma wv_endian_arg_char ev st n sg z e :
  wv_step ev st (WWriteEndian n sg z e) = wv_step ev st (WWrite [write_endian_arg n sg z e]).
Proof. cbn [wv_step]. unfold write_with_endian, write_endian_arg. now destruct e. Qed.

Lemma wop_endian_ok n sg z e : wop_ok (WWriteEndian n sg z e) -> wop_ok (WWrite [write_endian_arg n sg z e]).
Proof.
  intros (A & B & C). unfold wop_ok. split; [easy|]. split; [constructor; [|constructor]|].
  - cbn. split; [lia|exact C].
  - unfold args_size, sum. cbn [map arg_bytes fold_right write_endian_arg].
    unfold value_size. cbn [scalar_of scalar_bytes]. lia.
Qed.

Lemma wv_step_inv ev st op : wv_inv st -> lenN (wv_data st) < ptr_max -> wop_ok op ->
  wv_inv (fst (wv_step ev st op)) /\ lenN (wv_data (fst (wv_step ev st op))) = lenN (wv_data st) /\
  defined (snd (wv_step ev st op)).
Proof.
  intros Hi Hlen Hop.
  assert (Hw : forall args, wop_ok (WWrite args) ->
    wv_inv (fst (wv_step ev st (WWrite args))) /\ lenN (wv_data (fst (wv_step ev st (WWrite args)))) = lenN (wv_data st) /\
    defined (snd (wv_step ev st (WWrite args)))).
  { intros args (Hne & Hok & Hsz). cbn [wv_step]. rewrite wv_write_char by assumption.
    pose proof (lenN_enc_args ev args Hok) as Hl. unfold wv_inv in *.
    destruct (N.ltb_spec (lenN (wv_data st)) (wv_pos st + args_size args)); cbn [fst snd wv_pos wv_data defined];
      repeat split; rewrite ?lenN_splice by lia; lia. }
  destruct op as [p|p|args|n sg z e|args].
  - cbn [wv_step wop_ok] in *. unfold wv_inv in *. destruct (N.ltb_spec (lenN (wv_data st)) p); cbn [fst snd wv_pos wv_data defined]; repeat split; lia.
  - cbn [wv_step wop_ok] in *. unfold wv_inv in *. destruct (N.ltb_spec (lenN (wv_data st)) p); cbn [fst snd wv_pos wv_data defined]; repeat split; lia.
  - now apply Hw.
  - rewrite wv_endian_arg_char. apply Hw. now apply wop_endian_ok.
  - destruct Hop as (Hne & Hok & Hsz). rewrite wv_trywrite_char by assumption. cbn zeta.
    pose proof (lenN_enc_args ev _ (fit_prefix_ok args (lenN (wv_data st) - wv_pos st) Hok)) as Hl.
    pose proof (fit_prefix_size args (lenN (wv_data st) - wv_pos st)) as Hf. unfold wv_inv in *.
    destruct (N.ltb_spec (lenN (wv_data st)) (wv_pos st + args_size args)); cbn [fst snd wv_pos wv_data defined];
      repeat split; rewrite ?lenN_splice by lia; lia.
Qed.

Lemma wv_run_inv ev ops : forall st, wv_inv st -> lenN (wv_data st) < ptr_max -> Forall wop_ok ops ->
  wv_inv (fst (wv_run ev st ops)) /\ lenN (wv_data (fst (wv_run ev st ops))) = lenN (wv_data st) /\
  Forall defined (snd (wv_run ev st ops)).
Proof.
  induction ops as [|op r IH]; intros st Hi Hlen Hops; [cbn; auto|].
  inversion Hops as [|? ? Hop Hr]; subst.
  destruct (wv_step_inv ev st op Hi Hlen Hop) as (A & B & C). cbn [wv_run].
  destruct (wv_step ev st op) as [st' o]. cbn [fst snd] in *.
  specialize (IH st' A ltac:(lia) Hr). destruct (wv_run ev st' r) as [st'' os]. cbn [fst snd] in *.
  destruct IH as (D & E & F). repeat split; [exact D|congruence|constructor; assumption].
Qed.

(** ** The append log *)

Lemma wv_throwing_char ev st op : wv_inv st -> lenN (wv_data st) < ptr_max -> wop_ok op -> is_throwing_write op ->
  wv_step ev st op =
    if lenN (wv_data st) <? wv_pos st + args_size (wop_args op) then (st, Throw out_of_range)
    else (WView (splice (wv_data st) (wv_pos st) (enc_args ev (wop_args op))) (wv_pos st + args_size (wop_args op)),
          Ok (WOCount (args_size (wop_args op)))).
Proof.
  intros Hi Hlen Hop Ht. destruct op as [p|p|args|n sg z e|args]; try easy.
  - destruct Hop as (_ & Hok & Hsz). cbn [wv_step wop_args]. now apply wv_write_char.
  - rewrite wv_endian_arg_char. apply wop_endian_ok in Hop. destruct Hop as (_ & Hok & Hsz).
    cbn [wv_step wop_args]. now apply wv_write_char.
Qed.

Lemma wop_args_ok op : wop_ok op -> is_throwing_write op -> Forall arg_ok (wop_args op).
Proof.
  destruct op as [p|p|args|n sg z e|args]; intros H Ht; try contradiction.
  - exact (proj1 (proj2 H)).
  - exact (proj1 (proj2 (wop_endian_ok n sg z e H))).
Qed.

Lemma enc_args_app ev a b : enc_args ev (a ++ b) = enc_args ev a ++ enc_args ev b.
Proof. unfold enc_args. rewrite map_app. apply concat_app. Qed.

Lemma wv_append_log ev ops : forall st st' outs,
  wv_inv st -> lenN (wv_data st) < ptr_max -> Forall wop_ok ops -> Forall is_throwing_write ops ->
  wv_run ev st ops = (st', outs) ->
  let log := accepted ops outs in
  Forall arg_ok log /\
  wv_pos st + lenN (enc_args ev log) <= lenN (wv_data st) /\
  wv_data st' = splice (wv_data st) (wv_pos st) (enc_args ev log) /\
  wv_pos st' = wv_pos st + lenN (enc_args ev log).
Proof.
  induction ops as [|op r IH]; intros st st' outs Hi Hlen Hok Hth E.
  - cbn in E. injection E as <- <-. unfold wv_inv in Hi. cbn zeta. unfold accepted.
    cbn [combine map concat]. unfold enc_args. cbn [map concat]. rewrite lenN_nil, N.add_0_r.
    rewrite splice_nil by exact Hi. auto.
  - inversion Hok as [|? ? Hop Hr]; subst. inversion Hth as [|? ? Hto Htr]; subst.
    cbn [wv_run] in E. rewrite wv_throwing_char in E by assumption.
    pose proof (wop_args_ok op Hop Hto) as Hao. pose proof (lenN_enc_args ev _ Hao) as Hl.
    destruct (N.ltb_spec (lenN (wv_data st)) (wv_pos st + args_size (wop_args op))) as [L|L].
    + destruct (wv_run ev st r) as [st2 os] eqn:E1. injection E as <- <-.
      unfold accepted. cbn [combine map fst snd concat app]. apply (IH st st2 os); assumption.
    + set (st1 := WView (splice (wv_data st) (wv_pos st) (enc_args ev (wop_args op))) (wv_pos st + args_size (wop_args op))) in *.
      destruct (wv_run ev st1 r) as [st2 os] eqn:E1. injection E as <- <-.
      assert (Hlen1 : lenN (wv_data st1) = lenN (wv_data st)) by (subst st1; cbn [wv_data]; rewrite lenN_splice; lia).
      destruct (IH st1 st2 os) as (A & B & C & D); try assumption;
        [unfold wv_inv; rewrite Hlen1; subst st1; cbn [wv_pos]; lia|lia|].
      unfold accepted. cbn [combine map fst snd concat]. fold (accepted r os).
      rewrite enc_args_app, lenN_app. rewrite Hlen1 in B. unfold st1 in B, C, D. cbn [wv_pos wv_data] in B, C, D.
      rewrite <- Hl in B, C, D. rewrite splice_splice in C by lia.
      repeat split; [apply Forall_app; split; assumption|lia|exact C|lia].
Qed.
