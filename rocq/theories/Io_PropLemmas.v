(** Lemmas closing the statements of Io_Props.v. *)
From Verif Require Import Base BaseFacts Io_Model Io_Spec Io_Proofs IoRead_Proofs.

Lemma args_size_1 a : args_size [a] = arg_bytes a.
Proof. unfold args_size, sum. cbn [map fold_right]. lia. Qed.
Lemma types_size_1 t : types_size [t] = value_size t.
Proof. unfold types_size, sum. cbn [map fold_right]. lia. Qed.
Lemma enc_args_1 ev a : enc_args ev [a] = enc_arg ev a.
Proof. unfold enc_args. cbn [map concat]. apply app_nil_r. Qed.

Lemma wire_format (m e : endian) (n : nat) (sg : bool) (z : Z) (buf : list byte) :
  (2 <= n)%nat -> int_ok n sg z -> N.of_nat n <= lenN buf -> lenN buf < size_mod ->
  exists bs buf',
    write (Env m m) [AVal (TEnc e n sg) (VInt z)] buf = (buf', Ok (N.of_nat n)) /\
    is_wire e n z bs /\ overwritten buf 0 bs buf'.
Proof.
  intros Hn Hz Hfit Hlt. set (ev := Env m m). set (a := AVal (TEnc e n sg) (VInt z)).
  assert (Ha : arg_ok a) by (cbn; split; [lia|exact Hz]).
  assert (Hb : arg_bytes a = N.of_nat n) by reflexivity.
  pose proof (lenN_enc_arg ev a Ha) as Hl.
  exists (enc_arg ev a), (splice buf 0 (enc_arg ev a)). split; [|split].
  - rewrite write_char; [|now constructor|exact Hlt|rewrite args_size_1; lia].
    rewrite args_size_1, enc_args_1, Hb. now rewrite (proj2 (N.ltb_ge _ _)) by lia.
  - pose proof (arg_encoding_enc ev a Ha) as H. cbn in H. unfold effective in H. cbn in H.
    now rewrite endian_eqb_refl in H.
  - apply splice_overwritten. lia.
Qed.

Lemma byte_begin_flip {A} m e (l : list A) :
  byte_begin_order (Env m (flip m)) e l = byte_begin_order (Env m m) (flip e) l.
Proof. unfold byte_begin_order. now destruct m, e. Qed.

Lemma front_roundtrip ev ts vs buf buf' n :
  Forall2 typed ts vs -> lenN buf < size_mod -> types_size ts < size_mod ->
  write ev (args_of ts vs) buf = (buf', Ok n) ->
  read ev ts buf' = Ok vs /\ n = types_size ts.
Proof.
  intros T Hb Hs E. pose proof (args_of_size ts vs (Forall2_length _ _ _ T)) as Hsz.
  pose proof (args_of_ok _ _ T) as Hok. pose proof (lenN_enc_args ev _ Hok) as Hl.
  rewrite write_char in E by (try exact Hok; lia). rewrite Hsz in *.
  destruct (N.ltb_spec (lenN buf) (types_size ts)); [discriminate|]. injection E as <- <-.
  split; [|reflexivity]. rewrite read_char by exact Hs. rewrite lenN_splice by lia.
  rewrite (proj2 (N.ltb_ge _ _)) by lia. f_equal. rewrite <- (dropN_0 (splice _ _ _)), dropN_splice by lia.
  now apply decode_enc.
Qed.

Lemma misconfigured_swaps (m e : endian) (n : nat) (sg : bool) (z : Z) (buf : list byte) :
  (2 <= n)%nat -> int_ok n sg z ->
  write (Env m (flip m)) [AVal (TEnc e n sg) (VInt z)] buf
    = write (Env m m) [AVal (TEnc (flip e) n sg) (VInt z)] buf
  /\ (forall buf' k, lenN buf < size_mod -> N.of_nat n < size_mod ->
        write (Env m (flip m)) [AVal (TEnc e n sg) (VInt z)] buf = (buf', Ok k) ->
        read (Env m (flip m)) [TEnc e n sg] buf' = Ok [VInt z]).
Proof.
  intros Hn Hz. split.
  - unfold write, byte_count, arg_size. destruct (_ <? _); [reflexivity|].
    cbn [recursive_unsafe_write unchecked_write bytes_of_value machine]. now rewrite byte_begin_flip.
  - intros buf' k Hb Hn2 E.
    apply (front_roundtrip (Env m (flip m)) [TEnc e n sg] [VInt z] buf buf' k);
      [constructor; [split; [lia|exact Hz]|constructor]|exact Hb| |exact E].
    rewrite types_size_1. exact Hn2.
Qed.

Lemma misconfigured_format_refuted :
  exists (m e : endian) n sg z buf buf' k,
    int_ok n sg z /\ write (Env m (flip m)) [AVal (TEnc e n sg) (VInt z)] buf = (buf', Ok k) /\
    ~ is_wire e n z buf'.
Proof.
  exists little, little, 2%nat, false, 258%Z, [x00; x00], [x01; x02], 2.
  split; [cbn; lia|]. split; [vm_compute; reflexivity|].
  intros [_ H]. destruct (H 0%nat ltac:(lia)) as (b & Hb & Hv). cbn in Hb. injection Hb as <-. cbn in Hv. lia.
Qed.

Lemma write_read_roundtrip ev ts vs pos buf buf' n :
  ts <> [] -> Forall2 typed ts vs -> pos < size_mod -> lenN buf < size_mod -> types_size ts < size_mod ->
  write_at ev (map (fun p => AVal (fst p) (snd p)) (combine ts vs)) pos buf = (buf', Ok n) ->
  read_at ev ts pos buf' = Ok vs /\ n = pos + types_size ts.
Proof.
  intros _ T Hp Hb Hs E. change (write_at ev (args_of ts vs) pos buf = (buf', Ok n)) in E.
  split; [eapply write_at_read_at; eassumption|].
  rewrite write_at_char in E; try assumption; [|now apply args_of_ok|].
  - rewrite args_of_size in E by (now apply Forall2_length in T).
    destruct (_ <=? _); [discriminate|]. destruct (_ <? _); [discriminate|]. now injection E.
  - now rewrite args_of_size by (now apply Forall2_length in T).
Qed.

Lemma write_read_front ev ts vs buf buf' n :
  ts <> [] -> Forall2 typed ts vs -> lenN buf < size_mod -> types_size ts < size_mod ->
  write ev (map (fun p => AVal (fst p) (snd p)) (combine ts vs)) buf = (buf', Ok n) ->
  read ev ts buf' = Ok vs /\ n = types_size ts.
Proof. intros _. apply front_roundtrip. Qed.

Lemma write_at_all_or_nothing ev args bs pos buf :
  args <> [] -> Forall arg_ok args -> args_encoding ev args bs ->
  pos < size_mod -> lenN buf < size_mod -> lenN bs < size_mod ->
  if size_mod <=? pos + lenN bs then write_at ev args pos buf = (buf, Throw invalid_argument)
  else if lenN buf <? pos + lenN bs then write_at ev args pos buf = (buf, Throw out_of_range)
  else exists buf', write_at ev args pos buf = (buf', Ok (pos + lenN bs)) /\ overwritten buf pos bs buf'.
Proof.
  intros _ Hok He Hp Hb Hs. apply args_encoding_eq in He; [|exact Hok]. subst bs.
  pose proof (lenN_enc_args ev args Hok) as Hl. rewrite Hl in *.
  rewrite write_at_char by assumption.
  destruct (N.leb_spec size_mod (pos + args_size args)); [reflexivity|].
  destruct (N.ltb_spec (lenN buf) (pos + args_size args)); [reflexivity|].
  eexists; split; [reflexivity|]. apply splice_overwritten. lia.
Qed.

Lemma write_all_or_nothing ev args bs buf :
  args <> [] -> Forall arg_ok args -> args_encoding ev args bs ->
  lenN buf < size_mod -> lenN bs < size_mod ->
  if lenN buf <? lenN bs then write ev args buf = (buf, Throw out_of_range)
  else exists buf', write ev args buf = (buf', Ok (lenN bs)) /\ overwritten buf 0 bs buf'.
Proof.
  intros _ Hok He Hb Hs. apply args_encoding_eq in He; [|exact Hok]. subst bs.
  pose proof (lenN_enc_args ev args Hok) as Hl. rewrite Hl in *.
  rewrite write_char by assumption.
  destruct (N.ltb_spec (lenN buf) (args_size args)); [reflexivity|].
  eexists; split; [reflexivity|]. apply splice_overwritten. lia.
Qed.

Lemma encoding_exists ev args : Forall arg_ok args ->
  exists bs, args_encoding ev args bs /\ lenN bs = args_size args /\
             forall bs', args_encoding ev args bs' -> bs' = bs.
Proof.
  intros H. exists (enc_args ev args). split; [now apply args_encoding_enc|].
  split; [now apply lenN_enc_args|]. intros bs'. now apply args_encoding_eq.
Qed.

Lemma read_at_exact ev ts pos buf :
  ts <> [] -> Forall vtype_ok ts -> pos < size_mod -> types_size ts < size_mod -> lenN buf < size_mod ->
  if size_mod <=? pos + types_size ts then read_at ev ts pos buf = Throw invalid_argument
  else if lenN buf <? pos + types_size ts then read_at ev ts pos buf = Throw out_of_range
  else exists vs, read_at ev ts pos buf = Ok vs /\ decodes ev ts (slice buf pos (types_size ts)) vs.
Proof.
  intros _ Hok Hp Hs Hb. rewrite read_at_char by assumption.
  destruct (N.leb_spec size_mod (pos + types_size ts)); [reflexivity|].
  destruct (N.ltb_spec (lenN buf) (pos + types_size ts)); [reflexivity|].
  eexists; split; [reflexivity|]. now apply read_slice_decodes.
Qed.

Lemma read_exact ev ts buf :
  ts <> [] -> Forall vtype_ok ts -> types_size ts < size_mod ->
  if lenN buf <? types_size ts then read ev ts buf = Throw out_of_range
  else exists vs, read ev ts buf = Ok vs /\ decodes ev ts (slice buf 0 (types_size ts)) vs.
Proof.
  intros _ Hok Hs. rewrite read_char by assumption.
  destruct (N.ltb_spec (lenN buf) (types_size ts)); [reflexivity|].
  eexists; split; [reflexivity|]. rewrite <- (dropN_0 buf) at 2. now apply read_slice_decodes.
Qed.

Lemma read_range_at_exact ev t k pos buf :
  vtype_ok t -> pos < size_mod -> N.of_nat k * value_size t < size_mod -> lenN buf < size_mod ->
  let n := N.of_nat k * value_size t in
  if size_mod <=? pos + n then read_range_at ev t k pos buf = Throw invalid_argument
  else if lenN buf <? pos + n then read_range_at ev t k pos buf = Throw out_of_range
  else exists vs, read_range_at ev t k pos buf = Ok vs /\ decodes ev (repeat t k) (slice buf pos n) vs.
Proof.
  intros Ht Hp Hs Hb n. rewrite read_range_at_char by assumption. cbn zeta. fold n.
  destruct (N.leb_spec size_mod (pos + n)); [reflexivity|].
  destruct (N.ltb_spec (lenN buf) (pos + n)); [reflexivity|].
  eexists; split; [reflexivity|]. subst n. rewrite <- types_size_repeat in *. apply read_slice_decodes; [|assumption].
  apply Forall_forall. intros t0 H1. apply repeat_spec in H1. now subst.
Qed.

Lemma read_range_exact ev t k buf :
  vtype_ok t -> N.of_nat k * value_size t < size_mod ->
  let n := N.of_nat k * value_size t in
  if lenN buf <? n then read_range ev t k buf = Throw out_of_range
  else exists vs, read_range ev t k buf = Ok vs /\ decodes ev (repeat t k) (slice buf 0 n) vs.
Proof.
  intros Ht Hs n. rewrite read_range_char by assumption. fold n.
  destruct (N.ltb_spec (lenN buf) n); [reflexivity|].
  eexists; split; [reflexivity|]. subst n. rewrite <- types_size_repeat in *.
  rewrite <- (dropN_0 buf) at 2. apply read_slice_decodes; [|lia].
  apply Forall_forall. intros t0 H1. apply repeat_spec in H1. now subst.
Qed.

Lemma decoding_unique ev ts bs vs vs' : decodes ev ts bs vs -> decodes ev ts bs vs' -> vs = vs'.
Proof. intros A B. apply decodes_eq in A, B. destruct A as [-> _], B as [-> _]. reflexivity. Qed.

Lemma try_read_at_total ev ts : Forall vtype_ok ts -> types_size ts < size_mod -> forall pos buf,
  pos < size_mod -> lenN buf < size_mod -> exists rs, try_read_at ev ts pos buf = Ok rs.
Proof.
  induction 1 as [|t r Ht _ IH]; intros Hs pos buf Hp Hb; [eexists; reflexivity|].
  rewrite types_size_cons in Hs. cbn [try_read_at]. rewrite try_read_at1_char by (try assumption; lia).
  cbn [obind]. destruct (IH ltac:(lia) (sz_add pos (value_size t)) buf (sz_add_lt _ _) Hb) as [rs ->].
  eexists; reflexivity.
Qed.

Lemma reads_never_undefined ev ts pos buf :
  Forall vtype_ok ts -> pos < size_mod -> types_size ts < size_mod -> lenN buf < size_mod ->
  (exists o, read ev ts buf = Ok o \/ exists e, read ev ts buf = Throw e) /\
  (exists o, read_at ev ts pos buf = Ok o \/ exists e, read_at ev ts pos buf = Throw e) /\
  (exists rs, try_read ev ts buf = Ok rs) /\
  (exists rs, try_read_at ev ts pos buf = Ok rs).
Proof.
  intros Hok Hp Hs Hb. repeat split.
  - rewrite read_char by assumption. destruct (_ <? _); [exists []; right|]; eexists; [|left]; reflexivity.
  - rewrite read_at_char by assumption.
    destruct (_ <=? _); [exists []; right; eexists; reflexivity|].
    destruct (_ <? _); [exists []; right; eexists; reflexivity|]. eexists; left; reflexivity.
  - rewrite try_read_char by assumption. eexists; reflexivity.
  - now apply try_read_at_total.
Qed.

Lemma other_bytes_irrelevant ev ts pos buf buf2 :
  Forall vtype_ok ts -> pos < size_mod -> types_size ts < size_mod -> lenN buf < size_mod ->
  lenN buf2 = lenN buf -> slice buf2 pos (types_size ts) = slice buf pos (types_size ts) ->
  read_at ev ts pos buf2 = read_at ev ts pos buf.
Proof.
  intros Hok Hp Hs Hb Hl E. rewrite !read_at_char by (try assumption; lia). rewrite Hl.
  destruct (N.leb_spec size_mod (pos + types_size ts)); [reflexivity|].
  destruct (N.ltb_spec (lenN buf) (pos + types_size ts)); [reflexivity|]. f_equal.
  rewrite (decode_all_take ev ts (dropN pos buf2)), (decode_all_take ev ts (dropN pos buf)) by (rewrite lenN_dropN; lia).
  unfold slice in E. now rewrite E.
Qed.

Lemma try_read_agrees ev t buf : vtype_ok t -> value_size t < size_mod ->
  (forall v, try_read1 ev t buf = Ok (RVal v) <-> read ev [t] buf = Ok [v]) /\
  (try_read1 ev t buf = Ok (RErr rd_insufficient_buffer) <-> read ev [t] buf = Throw out_of_range) /\
  (exists r, try_read1 ev t buf = Ok r /\ r <> RErr rd_invalid_position_offset /\ r <> RErr rd_file_not_found).
Proof.
  intros Ht Hs. rewrite try_read1_char, read_char by (rewrite types_size_1; exact Hs). rewrite types_size_1.
  cbn [decode_all]. destruct (_ <? _); (split; [intros v; split; congruence|]);
    (split; [split; congruence|]); eexists; (split; [reflexivity|]); split; discriminate.
Qed.

Lemma try_read_at_agrees ev t pos buf :
  vtype_ok t -> value_size t < size_mod -> pos < size_mod -> lenN buf < size_mod ->
  (forall v, try_read_at1 ev t pos buf = Ok (RVal v) <-> read_at ev [t] pos buf = Ok [v]) /\
  (try_read_at1 ev t pos buf = Ok (RErr rd_invalid_position_offset) <-> read_at ev [t] pos buf = Throw invalid_argument) /\
  (try_read_at1 ev t pos buf = Ok (RErr rd_insufficient_buffer) <-> read_at ev [t] pos buf = Throw out_of_range) /\
  (exists r, try_read_at1 ev t pos buf = Ok r /\ r <> RErr rd_file_not_found).
Proof.
  intros Ht Hs Hp Hb. rewrite try_read_at1_char, read_at_char by (rewrite ?types_size_1; assumption).
  rewrite types_size_1. cbn [decode_all]. unfold slice.
  destruct (_ <=? _); [|destruct (_ <? _)]; (split; [intros v; split; congruence|]);
    (split; [split; congruence|]); (split; [split; congruence|]); eexists; (split; [reflexivity|]); discriminate.
Qed.

Lemma try_read_range_at_agrees ev t k pos buf :
  (0 < k)%nat -> vtype_ok t ->
  N.of_nat k * value_size t < size_mod -> pos < size_mod -> lenN buf < size_mod ->
  (forall vs, try_read_range_at ev t k pos buf = Ok (RVal vs) <-> read_range_at ev t k pos buf = Ok vs) /\
  (try_read_range_at ev t k pos buf = Ok (RErr rd_invalid_position_offset) <-> read_range_at ev t k pos buf = Throw invalid_argument) /\
  (try_read_range_at ev t k pos buf = Ok (RErr rd_insufficient_buffer) <-> read_range_at ev t k pos buf = Throw out_of_range).
Proof.
  intros Hk Hsb Hn Hp Hb. rewrite try_read_range_at_char, read_range_at_char by assumption. cbn zeta.
  assert (0 < value_size t) by (unfold vtype_ok in Hsb; unfold value_size; lia).
  assert (0 < N.of_nat k * value_size t) by nia.
  set (n := N.of_nat k * value_size t) in *.
  destruct (N.leb_spec size_mod (pos + n)).
  { repeat split; intros; try congruence. }
  replace ((lenN buf <=? pos) || (lenN buf <? pos + n)) with (lenN buf <? pos + n).
  2: { destruct (N.ltb_spec (lenN buf) (pos + n)), (N.leb_spec (lenN buf) pos); cbn; try reflexivity; lia. }
  destruct (N.ltb_spec (lenN buf) (pos + n)); repeat split; intros; congruence.
Qed.

Lemma try_read_range_agrees ev t k buf :
  vtype_ok t -> N.of_nat k * value_size t < size_mod ->
  (forall vs, try_read_range ev t k buf = Ok (RVal vs) <-> read_range ev t k buf = Ok vs) /\
  (try_read_range ev t k buf = Ok (RErr rd_insufficient_buffer) <-> read_range ev t k buf = Throw out_of_range).
Proof.
  intros _ Hn. rewrite try_read_range_char, read_range_char by exact Hn.
  destruct (_ <? _); repeat split; intros; congruence.
Qed.

Lemma empty_range_at_end_refuted : exists ev t pos buf,
  read_range_at ev t 0 pos buf = Ok [] /\ try_read_range_at ev t 0 pos buf = Ok (RErr rd_insufficient_buffer).
Proof. exists (Env little little), (TPlain (SInt 2 false)), 1, [x00]. now vm_compute. Qed.

Lemma try_read_prefix ev ts buf : Forall vtype_ok ts ->
  exists j vs, (j <= length ts)%nat /\
    types_size (firstn j ts) <= lenN buf /\
    ((j < length ts)%nat -> lenN buf < types_size (firstn (S j) ts)) /\
    decodes ev (firstn j ts) (slice buf 0 (types_size (firstn j ts))) vs /\
    try_read ev ts buf = Ok (map RVal vs ++ repeat (RErr rd_insufficient_buffer) (length ts - j)).
Proof.
  intros Hok. exists (fit_count ts (lenN buf)), (decode_all ev (firstn (fit_count ts (lenN buf)) ts) buf).
  split; [apply fit_count_le|]. split; [apply fit_count_fits|]. split; [apply fit_count_max|].
  split; [|now apply try_read_char]. rewrite <- (dropN_0 buf) at 4.
  apply read_slice_decodes; [|apply fit_count_fits]. apply Forall_forall. intros t Ht.
  rewrite Forall_forall in Hok. apply Hok. rewrite <- (firstn_skipn (fit_count ts (lenN buf)) ts). apply in_or_app. now left.
Qed.

Lemma try_read_at_prefix ev ts pos buf : Forall vtype_ok ts ->
  lenN buf < size_mod -> pos + types_size ts < size_mod ->
  exists j vs, (j <= length ts)%nat /\
    (j = 0%nat \/ pos + types_size (firstn j ts) <= lenN buf) /\
    ((j < length ts)%nat -> lenN buf < pos + types_size (firstn (S j) ts)) /\
    decodes ev (firstn j ts) (slice buf pos (types_size (firstn j ts))) vs /\
    try_read_at ev ts pos buf = Ok (map RVal vs ++ repeat (RErr rd_insufficient_buffer) (length ts - j)).
Proof.
  intros Hok Hb Hs. set (j := fit_count ts (lenN buf - pos)).
  assert (Hsub : Forall vtype_ok (firstn j ts)).
  { apply Forall_forall. intros t Ht. rewrite Forall_forall in Hok. apply Hok.
    rewrite <- (firstn_skipn j ts). apply in_or_app. now left. }
  pose proof (fit_count_fits ts (lenN buf - pos)) as Hf. fold j in Hf.
  assert (H0 : j = 0%nat \/ pos + types_size (firstn j ts) <= lenN buf).
  { destruct j as [|j'] eqn:Ej; [now left|right]. destruct ts as [|t r]; [cbn in Ej; discriminate|].
    cbn [firstn] in *. rewrite types_size_cons in *. inversion Hok; subst. pose proof (value_size_pos t H1). lia. }
  exists j, (decode_all ev (firstn j ts) (dropN pos buf)).
  split; [apply fit_count_le|]. split; [exact H0|]. split.
  - intros L. pose proof (fit_count_max ts (lenN buf - pos) L) as M. fold j in M. lia.
  - split; [|now apply try_read_at_char]. destruct H0 as [H0|H0]; [|now apply read_slice_decodes].
    rewrite H0. cbn [firstn decode_all]. change (types_size []) with 0. unfold slice. rewrite takeN_0. constructor.
Qed.

Lemma try_read_at_wraps_refuted : exists ev ts pos buf r v,
  Forall vtype_ok ts /\ pos < size_mod /\ lenN buf < pos /\
  try_read_at ev ts pos buf = Ok [r; RVal v].
Proof.
  exists (Env little little), [TPlain (SInt 8 false); TPlain (SInt 4 false)], (size_mod - 4), (repeat x07 8).
  eexists _, _. split; [repeat constructor|]. split; [reflexivity|]. split; [reflexivity|]. vm_compute. reflexivity.
Qed.

Lemma try_write_single ev a bs buf :
  arg_ok a -> arg_encoding ev a bs -> lenN buf < size_mod -> lenN bs < size_mod ->
  (forall e, snd (try_write ev [a] buf) = Ok (RErr e) ->
      fst (try_write ev [a] buf) = buf /\ e = wr_insufficient_buffer /\ snd (write ev [a] buf) = Throw out_of_range) /\
  (forall n, snd (try_write ev [a] buf) = Ok (RVal n) ->
      write ev [a] buf = (fst (try_write ev [a] buf), Ok n)) /\
  (exists r, snd (try_write ev [a] buf) = Ok r).
Proof.
  intros Ha He Hb Hs. apply arg_encoding_eq in He; [|exact Ha]. subst bs. rewrite lenN_enc_arg in Hs by exact Ha.
  assert (E : try_write ev [a] buf = try_write1 ev a buf).
  { cbn [try_write]. destruct (try_write1 ev a buf) as [b [[n|e]| | | |]]; reflexivity. }
  rewrite E, try_write1_char by assumption.
  rewrite write_char by (rewrite ?args_size_1; try assumption; now constructor). rewrite args_size_1, enc_args_1.
  destruct (_ <? _); cbn [fst snd]; repeat split; try congruence; intros; try congruence; eexists; reflexivity.
Qed.

Lemma each_small args : args_size args < size_mod -> Forall (fun a => arg_bytes a < size_mod) args.
Proof.
  induction args as [|a r IH]; intros H; constructor;
    change (args_size (a :: r)) with (arg_bytes a + args_size r) in H; [lia|apply IH; lia].
Qed.

Lemma try_write_success ev args buf buf' n :
  args <> [] -> Forall arg_ok args -> lenN buf < size_mod -> args_size args < size_mod ->
  (try_write ev args buf = (buf', Ok (RVal n)) <-> write ev args buf = (buf', Ok n)).
Proof.
  intros Hne Hok Hb Hs. rewrite try_write_char, write_char by (try assumption; now apply each_small).
  destruct (N.ltb_spec (lenN buf) (args_size args)); [split; discriminate|].
  rewrite fit_prefix_all by lia. split; intros E; injection E as <- <-; reflexivity.
Qed.

Lemma try_write_at_single ev a bs pos buf :
  arg_ok a -> arg_encoding ev a bs -> pos < size_mod -> lenN buf < size_mod -> 0 < lenN bs < size_mod ->
  (forall e, snd (try_write_at ev [a] pos buf) = Ok (RErr e) ->
      fst (try_write_at ev [a] pos buf) = buf /\
      snd (write_at ev [a] pos buf) =
        Throw (match e with wr_invalid_position_offset => invalid_argument | wr_insufficient_buffer => out_of_range end)) /\
  (forall n, snd (try_write_at ev [a] pos buf) = Ok (RVal n) ->
      write_at ev [a] pos buf = (fst (try_write_at ev [a] pos buf), Ok n)) /\
  (exists r, snd (try_write_at ev [a] pos buf) = Ok r).
Proof.
  intros Ha He Hp Hb Hs. apply arg_encoding_eq in He; [|exact Ha]. subst bs. rewrite lenN_enc_arg in Hs by exact Ha.
  assert (E : try_write_at ev [a] pos buf = try_write_at1 ev a pos buf).
  { cbn [try_write_at]. destruct (try_write_at1 ev a pos buf) as [b [[n|e]| | | |]]; reflexivity. }
  rewrite E, try_write_at1_char by (try assumption; lia).
  rewrite write_at_char by (rewrite ?args_size_1; try assumption; try lia; now constructor). rewrite args_size_1, enc_args_1.
  destruct (N.leb_spec size_mod (pos + arg_bytes a)).
  { cbn [fst snd]; repeat split; try congruence; intros; try congruence; try (injection H0 as <-; reflexivity). eexists; reflexivity. }
  replace ((lenN buf <=? pos) || (lenN buf <? pos + arg_bytes a)) with (lenN buf <? pos + arg_bytes a)
    by (destruct (N.ltb_spec (lenN buf) (pos + arg_bytes a)), (N.leb_spec (lenN buf) pos); cbn; try reflexivity; lia).
  destruct (_ <? _); cbn [fst snd]; repeat split; try congruence; intros; try congruence;
    try (injection H0 as <-; reflexivity); try (eexists; reflexivity).
Qed.

Lemma try_write_many_refuted : exists ev args buf buf' e,
  Forall arg_ok args /\ try_write ev args buf = (buf', Ok (RErr e)) /\ buf' <> buf.
Proof.
  exists (Env little little), [AVal (TPlain (SInt 1 false)) (VInt 7); AVal (TPlain (SInt 2 false)) (VInt 8)], [x00; x00].
  eexists _, _. split; [repeat constructor; cbn; lia|]. split; [vm_compute; reflexivity|discriminate].
Qed.
Lemma try_write_at_many_refuted : exists ev args pos buf buf' e,
  Forall arg_ok args /\ try_write_at ev args pos buf = (buf', Ok (RErr e)) /\ buf' <> buf.
Proof.
  exists (Env little little), [AVal (TPlain (SInt 1 false)) (VInt 7); AVal (TPlain (SInt 2 false)) (VInt 8)], 1, [x00; x00; x00].
  eexists _, _. split; [repeat constructor; cbn; lia|]. split; [vm_compute; reflexivity|discriminate].
Qed.
Lemma try_write_at_empty_refuted : exists ev a pos buf,
  arg_ok a /\ write_at ev [a] pos buf = (buf, Ok pos) /\
  try_write_at ev [a] pos buf = (buf, Ok (RErr wr_insufficient_buffer)).
Proof.
  exists (Env little little), (ARange (SInt 2 false) []), 1, [x07].
  split; [cbn; split; [lia|constructor]|]. now vm_compute.
Qed.

Lemma fit_prefix_split args room : exists rest,
  args = fit_prefix args room ++ rest /\
  match rest with [] => True | a :: _ => room < args_size (fit_prefix args room) + arg_bytes a end.
Proof.
  revert room. induction args as [|a r IH]; intros room; [exists []; auto|].
  cbn [fit_prefix]. destruct (N.leb_spec (arg_bytes a) room).
  - destruct (IH (room - arg_bytes a)) as (rest & E & M). exists rest. split; [cbn [app]; congruence|].
    destruct rest; [exact I|]. change (args_size (a :: fit_prefix r (room - arg_bytes a))) with (arg_bytes a + args_size (fit_prefix r (room - arg_bytes a))). lia.
  - exists (a :: r). split; [reflexivity|]. change (args_size []) with 0. lia.
Qed.

Lemma args_size_app a b : args_size (a ++ b) = args_size a + args_size b.
Proof.
  induction a as [|x r IH]; [reflexivity|]. cbn [app].
  change (args_size (x :: r ++ b)) with (arg_bytes x + args_size (r ++ b)).
  change (args_size (x :: r)) with (arg_bytes x + args_size r). lia.
Qed.

Lemma try_write_writes_prefix ev args buf :
  args <> [] -> Forall arg_ok args -> Forall (fun a => arg_bytes a < size_mod) args -> lenN buf < size_mod ->
  exists pre rest bs buf' r,
    args = pre ++ rest /\ args_size pre <= lenN buf /\
    match rest with [] => True | a :: _ => lenN buf < args_size pre + arg_bytes a end /\
    args_encoding ev pre bs /\ overwritten buf 0 bs buf' /\
    try_write ev args buf = (buf', Ok r) /\
    r = (match rest with [] => RVal (args_size args) | _ :: _ => RErr wr_insufficient_buffer end).
Proof.
  intros Hne Hok Hsm Hb. set (pre := fit_prefix args (lenN buf)).
  destruct (fit_prefix_split args (lenN buf)) as (rest & E & M). fold pre in E, M.
  pose proof (fit_prefix_ok args (lenN buf) Hok) as Hpo. fold pre in Hpo.
  pose proof (fit_prefix_size args (lenN buf)) as Hsz. fold pre in Hsz.
  exists pre, rest, (enc_args ev pre), (splice buf 0 (enc_args ev pre)). eexists. split; [exact E|].
  split; [exact Hsz|]. split; [exact M|]. split; [now apply args_encoding_enc|].
  split; [apply splice_overwritten; rewrite lenN_enc_args by exact Hpo; lia|].
  split; [now apply try_write_char|].
  assert (Ha : args_size args = args_size pre + args_size rest) by (rewrite E at 1; apply args_size_app).
  destruct rest as [|a rest].
  - change (args_size []) with 0 in Ha. now rewrite (proj2 (N.ltb_ge _ _)) by lia.
  - change (args_size (a :: rest)) with (arg_bytes a + args_size rest) in Ha.
    now rewrite (proj2 (N.ltb_lt _ _)) by lia.
Qed.

Lemma try_write_at_writes_prefix ev args pos buf :
  args <> [] -> Forall arg_ok args -> Forall (fun a => 0 < arg_bytes a < size_mod) args ->
  pos <= lenN buf -> lenN buf < size_mod ->
  exists pre rest bs buf' r,
    args = pre ++ rest /\ pos + args_size pre <= lenN buf /\
    match rest with [] => True | a :: _ => lenN buf < pos + args_size pre + arg_bytes a end /\
    args_encoding ev pre bs /\ overwritten buf pos bs buf' /\
    try_write_at ev args pos buf = (buf', Ok r) /\
    match rest with [] => r = RVal (pos + args_size args) | _ :: _ => exists e, r = RErr e /\
       (pos + args_size args < size_mod -> e = wr_insufficient_buffer) end.
Proof.
  intros Hne Hok Hsm Hp Hb. set (pre := fit_prefix args (lenN buf - pos)).
  destruct (fit_prefix_split args (lenN buf - pos)) as (rest & E & M). fold pre in E, M.
  pose proof (fit_prefix_ok args (lenN buf - pos) Hok) as Hpo. fold pre in Hpo.
  pose proof (fit_prefix_size args (lenN buf - pos)) as Hsz. fold pre in Hsz.
  destruct (try_write_at_char ev args Hne Hok Hsm pos buf ltac:(lia) Hb) as (r & Hr & Hv).
  rewrite (proj2 (N.leb_le _ _) Hp) in Hr. fold pre in Hr.
  exists pre, rest, (enc_args ev pre), (splice buf pos (enc_args ev pre)), r. split; [exact E|].
  split; [lia|]. split; [destruct rest; [exact I|lia]|]. split; [now apply args_encoding_enc|].
  split; [apply splice_overwritten; rewrite lenN_enc_args by exact Hpo; lia|].
  split; [exact Hr|].
  assert (Ha : args_size args = args_size pre + args_size rest) by (rewrite E at 1; apply args_size_app).
  destruct rest as [|a rest].
  - change (args_size []) with 0 in Ha. now rewrite (proj2 (N.leb_le _ _)) in Hv by lia.
  - change (args_size (a :: rest)) with (arg_bytes a + args_size rest) in Ha.
    now rewrite (proj2 (N.leb_gt _ _)) in Hv by lia.
Qed.

Lemma try_write_at_past_end ev args pos buf :
  args <> [] -> Forall arg_ok args -> Forall (fun a => 0 < arg_bytes a < size_mod) args ->
  lenN buf < pos -> pos < size_mod ->
  exists e, try_write_at ev args pos buf = (buf, Ok (RErr e)).
Proof.
  intros Hne Hok Hsm Hl Hp.
  destruct (try_write_at_char ev args Hne Hok Hsm pos buf Hp ltac:(lia)) as (r & Hr & Hv).
  rewrite (proj2 (N.leb_gt _ _) Hl) in Hr. rewrite (proj2 (N.leb_gt _ _)) in Hv by lia.
  destruct Hv as (e & -> & _). now exists e.
Qed.

Lemma size_overflow_refuted : exists ev args buf,
  Forall arg_ok args /\ snd (write ev args buf) = UB.
Proof.
  exists (Env little little), [ARange (SInt 8 false) (repeat (VInt 0) (N.to_nat (2 ^ 61)))], [].
  split.
  - constructor; [|constructor]. split; [cbn; lia|]. apply Forall_forall. intros v Hv. apply repeat_spec in Hv. subst v. cbn. lia.
  - unfold write, byte_count, arg_size, range_bytes. rewrite lenN_repeat, N2Nat.id.
    change (sz_add (sz_mul (2 ^ 61) (N.of_nat (scalar_bytes (SInt 8 false)))) 0) with 0. cbn [lenN length N.of_nat N.ltb N.compare].
    cbn [recursive_unsafe_write unchecked_write].
    destruct (N.to_nat (2 ^ 61)) as [|k] eqn:Ek; [lia|]. cbn [repeat]. reflexivity.
Qed.

Lemma no_overflow_safe ev args buf :
  args <> [] -> Forall arg_ok args -> args_size args < size_mod -> lenN buf < size_mod ->
  snd (write ev args buf) <> UB /\ lenN (fst (write ev args buf)) = lenN buf.
Proof.
  intros _ Hok Hs Hb. rewrite write_char by assumption.
  destruct (N.ltb_spec (lenN buf) (args_size args)); cbn [fst snd]; (split; [discriminate|]); [reflexivity|].
  apply lenN_splice. rewrite lenN_enc_args by exact Hok. lia.
Qed.

Lemma from_to_bytes ev t v : typed t v -> value_size t < size_mod ->
  exists b, to_bytes ev t v = Ok b /\ try_to_bytes ev t v = Ok (RVal b) /\ lenN b = value_size t /\
            value_encoding ev t v b /\
            from_bytes ev t b = Ok [v] /\ try_from_bytes ev t b = Ok (RVal v).
Proof.
  intros Ht Hs. exists (bytes_of_value ev t v). pose proof (lenN_bytes_of_value ev t v Ht) as Hl.
  split; [now apply to_bytes_char|]. split; [now apply try_to_bytes_char|]. split; [exact Hl|].
  split; [now apply value_encoding_bytes|]. unfold try_from_bytes.
  rewrite from_bytes_char, try_read1_char by exact Hs. rewrite (proj2 (N.ltb_ge _ _)) by lia.
  rewrite takeN_all by lia. rewrite value_roundtrip by exact Ht. auto.
Qed.

Lemma to_from_bytes ev t b : vtype_ok t -> value_size t < size_mod -> lenN b = value_size t ->
  exists v, typed t v /\ from_bytes ev t b = Ok [v] /\ try_from_bytes ev t b = Ok (RVal v) /\
            to_bytes ev t v = Ok b /\ try_to_bytes ev t v = Ok (RVal b).
Proof.
  intros Ht Hs Hl. assert (Hn : length b = scalar_bytes (scalar_of t)) by (unfold lenN, value_size in Hl; lia).
  exists (value_of_bytes ev t b). pose proof (value_of_bytes_typed ev t b Ht Hn) as Hty. split; [exact Hty|].
  unfold try_from_bytes. rewrite from_bytes_char, try_read1_char by exact Hs. rewrite (proj2 (N.ltb_ge _ _)) by lia.
  rewrite takeN_all by lia. rewrite to_bytes_char, try_to_bytes_char by assumption.
  rewrite bytes_roundtrip by assumption. auto.
Qed.

Lemma range_roundtrip ev s vs pos buf buf' n :
  (0 < scalar_bytes s)%nat -> Forall (value_ok s) vs -> pos < size_mod -> lenN buf < size_mod ->
  lenN vs * N.of_nat (scalar_bytes s) < size_mod ->
  write_at ev [ARange s vs] pos buf = (buf', Ok n) ->
  n = pos + lenN vs * N.of_nat (scalar_bytes s) /\
  read_range_at ev (TPlain s) (length vs) pos buf' = Ok vs.
Proof.
  intros Hs Hv Hp Hb Hn E. set (a := ARange s vs) in *.
  assert (Ha : arg_ok a) by (split; assumption). pose proof (lenN_enc_arg ev a Ha) as Hl.
  assert (Hab : arg_bytes a = lenN vs * N.of_nat (scalar_bytes s)) by reflexivity.
  rewrite write_at_char in E by (rewrite ?args_size_1; try assumption; try lia; now constructor).
  rewrite args_size_1, enc_args_1 in E.
  destruct (N.leb_spec size_mod (pos + arg_bytes a)); [discriminate|].
  destruct (N.ltb_spec (lenN buf) (pos + arg_bytes a)); [discriminate|]. injection E as <- <-.
  split; [reflexivity|].
  assert (Hk : N.of_nat (length vs) * N.of_nat (scalar_bytes s) = arg_bytes a) by reflexivity.
  assert (Hfit : pos + lenN (enc_arg ev a) <= lenN buf) by (rewrite Hl; assumption).
  rewrite read_range_at_char; cbn zeta; rewrite ?Hk; try assumption.
  - rewrite (proj2 (N.leb_gt _ _)) by assumption.
    rewrite lenN_splice by exact Hfit. rewrite (proj2 (N.ltb_ge _ _)) by assumption. f_equal.
    rewrite dropN_splice by exact Hfit. now apply decode_range_enc.
  - rewrite lenN_splice by exact Hfit. exact Hb.
Qed.

Lemma range_reads_back ev t vs pos buf buf' n :
  Forall (typed t) vs -> pos < size_mod -> lenN buf < size_mod -> lenN vs * value_size t < size_mod ->
  write_at ev (map (AVal t) vs) pos buf = (buf', Ok n) ->
  n = pos + lenN vs * value_size t /\ read_range_at ev t (length vs) pos buf' = Ok vs.
Proof.
  intros Hv Hp Hb Hn E.
  assert (T : Forall2 typed (repeat t (length vs)) vs).
  { clear - Hv. induction Hv; cbn; constructor; assumption. }
  assert (A : map (AVal t) vs = args_of (repeat t (length vs)) vs).
  { clear. unfold args_of. induction vs; cbn; [reflexivity|]. now f_equal. }
  assert (Hsz : types_size (repeat t (length vs)) = lenN vs * value_size t) by (rewrite types_size_repeat; reflexivity).
  rewrite A in E. pose proof E as E2.
  assert (Hn' : n = pos + lenN vs * value_size t).
  { rewrite write_at_char in E2; try assumption; [|now apply args_of_ok|].
    - rewrite args_of_size, Hsz in E2 by (now apply Forall2_length in T).
      destruct (_ <=? _); [discriminate|]. destruct (_ <? _); [discriminate|]. now injection E2.
    - now rewrite args_of_size, Hsz by (now apply Forall2_length in T). }
  split; [exact Hn'|].
  pose proof (write_at_read_at ev _ vs pos buf buf' n T) as R.
  specialize (R Hp Hb). rewrite Hsz in R. specialize (R Hn E).
  assert (Hl : lenN buf' = lenN buf).
  { clear R. rewrite write_at_char in E; try assumption; [|now apply args_of_ok|rewrite args_of_size, Hsz by (now apply Forall2_length in T); assumption].
    destruct (_ <=? _); [discriminate|]. destruct (N.ltb_spec (lenN buf) (pos + args_size (args_of (repeat t (length vs)) vs))); [discriminate|].
    injection E as <- _. apply lenN_splice. rewrite lenN_enc_args by (now apply args_of_ok). assumption. }
  rewrite read_at_char in R by (rewrite ?Hsz, ?Hl; assumption).
  rewrite read_range_at_char by (rewrite ?Hl; assumption). cbn zeta.
  change (N.of_nat (length vs)) with (lenN vs). rewrite Hsz in R. exact R.
Qed.
