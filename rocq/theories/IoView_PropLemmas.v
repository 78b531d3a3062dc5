(** Lemmas closing the statements of IoView_Props.v. *)
From Verif Require Import Base BaseFacts Io_Model Io_Spec Io_Proofs IoRead_Proofs IoView_Model IoView_Spec IoView_Proofs Io_PropLemmas.

Lemma read_view_in_bounds ev buf p ops : p <= lenN buf -> lenN buf < size_mod -> Forall rop_ok ops ->
  let '(st, outs) := rv_run ev (RView buf p) ops in
  rv_pos st <= lenN buf /\ rv_data st = buf /\ length outs = length ops /\
  Forall (fun o => (exists r, o = Ok r) \/ (exists e, o = Throw e)) outs.
Proof.
  intros Hp Hb Hops. destruct (rv_run_inv ev ops (RView buf p) Hp Hb Hops) as (A & B & C).
  assert (L : forall st, length (snd (rv_run ev st ops)) = length ops).
  { clear. induction ops as [|op r IH]; intros st; [reflexivity|]. cbn [rv_run].
    destruct (rv_step ev st op) as [st' o]. specialize (IH st'). destruct (rv_run ev st' r). cbn in *. now rewrite IH. }
  specialize (L (RView buf p)). destruct (rv_run ev (RView buf p) ops) as [st outs]. cbn [fst snd rv_data] in *.
  unfold rv_inv in A. rewrite B in A. repeat split; try assumption.
  eapply Forall_impl; [|exact C]. intros [r|e| | |]; cbn; intros H; try contradiction; [left|right]; eauto.
Qed.

Lemma read_view_at buf p ops ev : p <= lenN buf -> lenN buf < size_mod ->
  forall ts, rop_ok (RRead ts) -> ops = RRead ts ->
  rv_step ev (RView buf p) ops =
    match read_at ev ts p buf with
    | Ok vs => (RView buf (p + types_size ts), Ok (ROVals vs))
    | _ => (RView buf p, Throw out_of_range)
    end.
Proof.
  intros Hp Hb ts Hok ->. rewrite rv_step_char by assumption. cbn zeta. cbn [rv_data rv_pos].
  destruct Hok as (_ & _ & Hs). pose proof ptr_max_lt. rewrite read_at_char by (try assumption; lia).
  unfold rv_rest. cbn [rv_pos rv_data].
  destruct (N.leb_spec size_mod (p + types_size ts)).
  - now rewrite (proj2 (N.ltb_lt _ _)) by lia.
  - now destruct (_ <? _).
Qed.

Lemma read_view_range_at buf p ev t k : p <= lenN buf -> lenN buf < size_mod -> rop_ok (RReadRange t k) ->
  rv_step ev (RView buf p) (RReadRange t k) =
    match read_range_at ev t k p buf with
    | Ok vs => (RView buf (p + N.of_nat k * value_size t), Ok (ROVals vs))
    | _ => (RView buf p, Throw out_of_range)
    end.
Proof.
  intros Hp Hb Hok. rewrite rv_step_char by assumption. cbn zeta. cbn [rv_data rv_pos].
  destruct Hok as (_ & Hs). pose proof ptr_max_lt. rewrite read_range_at_char by (try assumption; lia). cbn zeta.
  unfold rv_rest. cbn [rv_pos rv_data].
  destruct (N.leb_spec size_mod (p + N.of_nat k * value_size t)).
  - now rewrite (proj2 (N.ltb_lt _ _)) by lia.
  - now destruct (_ <? _).
Qed.

Lemma read_view_endian_at buf p ev n sg e : p <= lenN buf -> lenN buf < size_mod -> rop_ok (RReadEndian n sg e) ->
  rv_step ev (RView buf p) (RReadEndian n sg e) =
    match read_at ev [TEnc e n sg] p buf with
    | Ok vs => (RView buf (p + N.of_nat n), Ok (ROVals vs))
    | _ => (RView buf p, Throw out_of_range)
    end.
Proof.
  intros Hp Hb Hok. rewrite rv_step_char by assumption. cbn zeta. cbn [rv_data rv_pos].
  destruct Hok as (_ & Hs). pose proof ptr_max_lt.
  assert (Hts : types_size [TEnc e n sg] = N.of_nat n) by (rewrite types_size_1; reflexivity).
  rewrite read_at_char by (try assumption; lia). rewrite Hts.
  unfold rv_rest. cbn [rv_pos rv_data].
  destruct (N.leb_spec size_mod (p + N.of_nat n)).
  - now rewrite (proj2 (N.ltb_lt _ _)) by lia.
  - now destruct (_ <? _).
Qed.

Lemma read_view_seek buf p q ev : p <= lenN buf ->
  rv_step ev (RView buf p) (RSeek q) =
    if q <=? lenN buf then (RView buf q, Ok ROUnit) else (RView buf p, Throw out_of_range).
Proof. intros _. cbn [rv_step rv_data]. destruct (N.ltb_spec (lenN buf) q), (N.leb_spec q (lenN buf)); reflexivity || lia. Qed.

Lemma read_view_throw_unchanged ev st op e : rv_pos st <= lenN (rv_data st) -> lenN (rv_data st) < size_mod -> rop_ok op ->
  snd (rv_step ev st op) = Throw e -> fst (rv_step ev st op) = st.
Proof.
  intros Hi Hb Hok. rewrite rv_step_char by assumption. cbn zeta.
  destruct op; try (destruct (_ <? _)); cbn [fst snd]; intros; reflexivity || discriminate.
Qed.

Lemma read_view_sequence ev buf p tss outs st' :
  p <= lenN buf -> lenN buf < size_mod -> Forall (fun ts => rop_ok (RRead ts)) tss ->
  rv_run ev (RView buf p) (map RRead tss) = (st', map (fun vs => Ok (ROVals vs)) outs) ->
  read_at ev (concat tss) p buf = Ok (concat outs) /\ rv_pos st' = p + types_size (concat tss) /\ rv_data st' = buf.
Proof.
  intros Hp Hb Hok E. destruct (rv_reads_concat ev tss (RView buf p) outs st' Hp Hb Hok E) as (A & B & C).
  cbn [rv_pos rv_data] in *.
  rewrite read_at_char by lia. rewrite (proj2 (N.leb_gt _ _)) by lia. rewrite (proj2 (N.ltb_ge _ _)) by lia.
  split; [f_equal; exact A|]. split; [exact B|].
  pose proof (rv_run_inv ev (map RRead tss) (RView buf p) Hp Hb) as (_ & D & _).
  { rewrite Forall_map. exact Hok. } rewrite E in D. exact D.
Qed.

Lemma try_read_view_consumes ev buf p ts : p <= lenN buf -> lenN buf < size_mod -> rop_ok (RTryRead ts) ->
  exists rs, try_read ev ts (dropN p buf) = Ok rs /\
    rv_step ev (RView buf p) (RTryRead ts) = (RView buf (N.min (lenN buf) (p + types_size ts)), Ok (ROTry rs)).
Proof.
  intros Hp Hb Hok. rewrite rv_step_char by assumption. cbn zeta. cbn [rv_data rv_pos].
  eexists. split; [apply try_read_char; apply Hok|]. now rewrite lenN_dropN.
Qed.

Lemma try_read_range_view_consumes ev buf p t k : p <= lenN buf -> lenN buf < size_mod -> rop_ok (RTryReadRange t k) ->
  exists r, try_read_range ev t k (dropN p buf) = Ok r /\
    rv_step ev (RView buf p) (RTryReadRange t k) =
      (RView buf (match r with RVal _ => p + N.of_nat k * value_size t | RErr _ => lenN buf end), Ok (ROTryRange r)).
Proof.
  intros Hp Hb Hok. rewrite rv_step_char by assumption. cbn zeta. cbn [rv_data rv_pos].
  destruct Hok as (_ & Hs). pose proof ptr_max_lt. eexists. split; [apply try_read_range_char; lia|].
  rewrite lenN_dropN.
  destruct (N.ltb_spec (lenN buf) (p + N.of_nat k * value_size t)),
           (N.ltb_spec (lenN buf - p) (N.of_nat k * value_size t)); try lia; reflexivity.
Qed.

Lemma failed_try_read_consumes_refuted : exists ev st op st' e,
  rop_ok op /\ rv_step ev st op = (st', Ok (ROTry [RErr e])) /\ rv_pos st' <> rv_pos st.
Proof.
  exists (Env little little), (RView [x01; x02] 1), (RTryRead [TPlain (SInt 4 false)]).
  eexists _, _. split; [repeat split; [discriminate|repeat constructor]|]. split; [vm_compute; reflexivity|]. cbn. lia.
Qed.
Lemma failed_try_read_range_consumes_refuted : exists ev st op st' e,
  rop_ok op /\ rv_step ev st op = (st', Ok (ROTryRange (RErr e))) /\ rv_pos st' <> rv_pos st.
Proof.
  exists (Env little little), (RView [x01; x02] 1), (RTryReadRange (TPlain (SInt 2 false)) 3).
  eexists _, _. split; [split; [unfold vtype_ok; cbn; lia|reflexivity]|]. split; [vm_compute; reflexivity|]. cbn. lia.
Qed.

Lemma write_view_append_log ev buf p ops st' outs :
  p <= lenN buf -> lenN buf < ptr_max -> Forall wop_ok ops -> Forall is_throwing_write ops ->
  wv_run ev (WView buf p) ops = (st', outs) ->
  exists bs, args_encoding ev (accepted ops outs) bs /\
    overwritten buf p bs (wv_data st') /\ wv_pos st' = p + lenN bs /\ wv_pos st' <= lenN buf.
Proof.
  intros Hp Hb Hok Hth E.
  destruct (wv_append_log ev ops (WView buf p) st' outs Hp Hb Hok Hth E) as (A & B & C & D). cbn [wv_pos wv_data] in *.
  exists (enc_args ev (accepted ops outs)). split; [now apply args_encoding_enc|].
  split; [rewrite C; now apply splice_overwritten|]. lia.
Qed.

Lemma write_view_step ev buf p op : p <= lenN buf -> lenN buf < ptr_max -> wop_ok op -> is_throwing_write op ->
  forall bs, args_encoding ev (wop_args op) bs ->
  if lenN buf <? p + lenN bs then wv_step ev (WView buf p) op = (WView buf p, Throw out_of_range)
  else exists buf', wv_step ev (WView buf p) op = (WView buf' (p + lenN bs), Ok (WOCount (lenN bs))) /\ overwritten buf p bs buf'.
Proof.
  intros Hp Hb Hok Hth bs He. pose proof (wop_args_ok op Hok Hth) as Ha.
  apply args_encoding_eq in He; [|exact Ha]. subst bs. rewrite wv_throwing_char by assumption.
  cbn [wv_pos wv_data]. rewrite lenN_enc_args by exact Ha.
  destruct (N.ltb_spec (lenN buf) (p + args_size (wop_args op))); [reflexivity|].
  eexists; split; [reflexivity|]. apply splice_overwritten. now rewrite lenN_enc_args by exact Ha.
Qed.

Lemma write_view_in_bounds ev buf p ops : p <= lenN buf -> lenN buf < ptr_max -> Forall wop_ok ops ->
  let '(st, outs) := wv_run ev (WView buf p) ops in
  wv_pos st <= lenN buf /\ lenN (wv_data st) = lenN buf /\
  Forall (fun o => (exists r, o = Ok r) \/ (exists e, o = Throw e)) outs.
Proof.
  intros Hp Hb Hops. destruct (wv_run_inv ev ops (WView buf p) Hp Hb Hops) as (A & B & C).
  destruct (wv_run ev (WView buf p) ops) as [st outs]. cbn [fst snd wv_data] in *.
  unfold wv_inv in A. rewrite B in A. repeat split; try assumption.
  eapply Forall_impl; [|exact C]. intros [r|e| | |]; cbn; intros H; try contradiction; [left|right]; eauto.
Qed.

Lemma failed_try_write_view_refuted : exists ev st op st' e,
  wop_ok op /\ wv_step ev st op = (st', Ok (WOTry (RErr e))) /\ wv_data st' <> wv_data st.
Proof.
  exists (Env little little), (WView [x00; x00; x00] 1),
    (WTryWrite [AVal (TPlain (SInt 1 false)) (VInt 7); AVal (TPlain (SInt 2 false)) (VInt 8)]).
  eexists _, _. split; [|split; [vm_compute; reflexivity|discriminate]].
  split; [discriminate|]. split; [repeat constructor; cbn; lia|reflexivity].
Qed.

Lemma try_write_view_exact ev buf p args : p <= lenN buf -> lenN buf < ptr_max -> wop_ok (WTryWrite args) ->
  exists pre rest bs buf',
    args = pre ++ rest /\ p + args_size pre <= lenN buf /\
    match rest with [] => True | a :: _ => lenN buf < p + args_size pre + arg_bytes a end /\
    args_encoding ev pre bs /\ overwritten buf p bs buf' /\
    wv_step ev (WView buf p) (WTryWrite args) =
      match rest with
      | [] => (WView buf' (p + args_size args), Ok (WOTry (RVal (args_size args))))
      | _ :: _ => (WView buf' p, Ok (WOTry (RErr wr_insufficient_buffer)))
      end.
Proof.
  intros Hp Hb (Hne & Hok & Hs). set (pre := fit_prefix args (lenN buf - p)).
  destruct (fit_prefix_split args (lenN buf - p)) as (rest & E & M). fold pre in E, M.
  pose proof (fit_prefix_ok args (lenN buf - p) Hok) as Hpo. fold pre in Hpo.
  pose proof (fit_prefix_size args (lenN buf - p)) as Hsz. fold pre in Hsz.
  exists pre, rest, (enc_args ev pre), (splice buf p (enc_args ev pre)). split; [exact E|].
  split; [lia|]. split; [destruct rest; [exact I|lia]|]. split; [now apply args_encoding_enc|].
  split; [apply splice_overwritten; rewrite lenN_enc_args by exact Hpo; lia|].
  rewrite wv_trywrite_char by assumption. cbn zeta. cbn [wv_pos wv_data]. fold pre.
  assert (Ha : args_size args = args_size pre + args_size rest) by (rewrite E at 1; apply args_size_app).
  destruct rest as [|a rest].
  - change (args_size []) with 0 in Ha. now rewrite (proj2 (N.ltb_ge _ _)) by lia.
  - change (args_size (a :: rest)) with (arg_bytes a + args_size rest) in Ha.
    now rewrite (proj2 (N.ltb_lt _ _)) by lia.
Qed.

Lemma try_write_view_single ev buf p a e : p <= lenN buf -> lenN buf < ptr_max -> wop_ok (WTryWrite [a]) ->
  snd (wv_step ev (WView buf p) (WTryWrite [a])) = Ok (WOTry (RErr e)) ->
  fst (wv_step ev (WView buf p) (WTryWrite [a])) = WView buf p.
Proof.
  intros Hp Hb Hop. pose proof Hop as (Hne & Hok & Hs). rewrite wv_trywrite_char by assumption. cbn zeta.
  cbn [wv_pos wv_data]. rewrite args_size_1. cbn [fit_prefix].
  destruct (N.ltb_spec (lenN buf) (p + arg_bytes a)); [|discriminate].
  intros _. cbn [fst]. rewrite (proj2 (N.leb_gt _ _)) by lia. f_equal. unfold enc_args. cbn [map concat]. now apply splice_nil.
Qed.

Lemma read_view_made : forall buf off,
  rv_data (rv_init buf) = buf /\ rv_pos (rv_init buf) = 0 /\
  (off <= lenN buf -> exists v, rv_make buf off = Ok v /\ rv_try_make buf off = Ok (RVal v) /\ rv_data v = buf /\ rv_pos v = off) /\
  (lenN buf < off -> rv_make buf off = Throw out_of_range /\ rv_try_make buf off = Ok (RErr rd_invalid_position_offset)).
Proof.
  intros buf off. split; [reflexivity|]. split; [reflexivity|]. unfold rv_make, rv_try_make. split; intros H.
  - rewrite (proj2 (N.ltb_ge _ _)) by lia. eauto.
  - rewrite (proj2 (N.ltb_lt _ _)) by lia. auto.
Qed.
Lemma write_view_made : forall buf off,
  wv_data (wv_init buf) = buf /\ wv_pos (wv_init buf) = 0 /\
  (off <= lenN buf -> exists v, wv_make buf off = Ok v /\ wv_data v = buf /\ wv_pos v = off) /\
  (lenN buf < off -> wv_make buf off = Throw out_of_range).
Proof.
  intros buf off. split; [reflexivity|]. split; [reflexivity|]. unfold wv_make. split; intros H.
  - rewrite (proj2 (N.ltb_ge _ _)) by lia. eauto.
  - rewrite (proj2 (N.ltb_lt _ _)) by lia. auto.
Qed.
