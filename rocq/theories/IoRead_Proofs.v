From Verif Require Import Base BaseFacts Io_Model Io_Spec Io_Proofs.
Ltac Zify.zify_post_hook ::= Z.div_mod_to_equations.

(** What a correct decoder returns on [bs]. *)
Fixpoint decode_all (ev : env) (ts : list vtype) (bs : list byte) : list value :=
  match ts with
  | [] => []
  | t :: r => value_of_bytes ev t (takeN (value_size t) bs) :: decode_all ev r (dropN (value_size t) bs)
  end.

Lemma types_size_cons t ts : types_size (t :: ts) = value_size t + types_size ts.
Proof. reflexivity. Qed.

Lemma unchecked_read_ok ev t buf pos : pos + value_size t <= lenN buf ->
  unchecked_read ev t buf pos = Ok (value_of_bytes ev t (slice buf pos (value_size t)), pos + value_size t).
Proof. intros H. unfold unchecked_read. rewrite load_ok by lia. cbn [obind]. now rewrite advance_ok. Qed.

Lemma recursive_read_ok ev ts : forall buf pos, pos + types_size ts <= lenN buf ->
  recursive_read ev ts buf pos = Ok (decode_all ev ts (dropN pos buf)).
Proof.
  induction ts as [|t r IH]; intros buf pos H; [reflexivity|].
  rewrite types_size_cons in H. cbn [recursive_read decode_all].
  rewrite unchecked_read_ok by lia. cbn [obind]. rewrite IH by lia. cbn [obind].
  unfold slice. rewrite dropN_dropN. do 3 f_equal. f_equal. lia.
Qed.

Lemma read_char ev ts buf : types_size ts < size_mod ->
  read ev ts buf = if lenN buf <? types_size ts then Throw out_of_range else Ok (decode_all ev ts buf).
Proof.
  intros H. unfold read. rewrite byte_count_ty_small by exact H.
  destruct (N.ltb_spec (lenN buf) (types_size ts)); [reflexivity|].
  rewrite recursive_read_ok by lia. now rewrite dropN_0.
Qed.

Lemma read_at_char ev ts pos buf : pos < size_mod -> types_size ts < size_mod -> lenN buf < size_mod ->
  read_at ev ts pos buf =
    if size_mod <=? pos + types_size ts then Throw invalid_argument
    else if lenN buf <? pos + types_size ts then Throw out_of_range
    else Ok (decode_all ev ts (dropN pos buf)).
Proof.
  intros Hp Hs Hb. unfold read_at. rewrite byte_count_ty_small by exact Hs.
  pose proof (sz_add_wraps pos (types_size ts) Hp Hs) as W.
  destruct (N.leb_spec size_mod (pos + types_size ts)).
  - now rewrite (proj2 (N.ltb_lt _ _)) by (apply W; lia).
  - rewrite (proj2 (N.ltb_ge _ _)) by lia.
    destruct (N.ltb_spec (lenN buf) pos).
    + now rewrite (proj2 (N.ltb_lt _ _)) by lia.
    + rewrite span_ok by lia. cbn [obind]. rewrite read_char by exact Hs. rewrite lenN_dropN.
      destruct (N.ltb_spec (lenN buf - pos) (types_size ts));
        destruct (N.ltb_spec (lenN buf) (pos + types_size ts)); try lia; reflexivity.
Qed.

(** decode_all depends on the first [types_size ts] bytes only and decodes them *)
Lemma decode_all_take ev ts : forall bs, types_size ts <= lenN bs ->
  decode_all ev ts bs = decode_all ev ts (takeN (types_size ts) bs).
Proof.
  induction ts as [|t r IH]; intros bs H; [reflexivity|]. rewrite types_size_cons in *. cbn [decode_all].
  f_equal.
  - rewrite takeN_takeN. do 2 f_equal. lia.
  - rewrite (IH (dropN _ bs)) by (rewrite lenN_dropN; lia). f_equal.
    rewrite takeN_dropN_comm. do 2 f_equal. lia.
Qed.

Lemma decode_all_decodes ev ts : Forall vtype_ok ts -> forall bs, lenN bs = types_size ts ->
  decodes ev ts bs (decode_all ev ts bs).
Proof.
  induction 1 as [|t r Ht Hr IH]; intros bs Hl.
  - cbn in Hl. rewrite (lenN_0 bs Hl). constructor.
  - rewrite types_size_cons in Hl. cbn [decode_all].
    rewrite <- (takeN_dropN (value_size t) bs) at 1.
    assert (Hn : length (takeN (value_size t) bs) = scalar_bytes (scalar_of t)).
    { pose proof (lenN_takeN (value_size t) bs) as L. unfold lenN, value_size in *. lia. }
    pose proof (value_of_bytes_typed ev t _ Ht Hn) as T.
    constructor; [exact T| |].
    + rewrite <- (bytes_roundtrip ev t _ Ht Hn) at 2. now apply value_encoding_bytes.
    + apply IH. rewrite lenN_dropN. lia.
Qed.

Lemma value_encoding_len ev t v b : typed t v -> value_encoding ev t v b -> lenN b = value_size t.
Proof. intros T E. rewrite (value_encoding_eq _ _ _ _ T E). now apply lenN_bytes_of_value. Qed.

Lemma decodes_eq ev ts bs vs : decodes ev ts bs vs -> vs = decode_all ev ts bs /\ lenN bs = types_size ts.
Proof.
  induction 1 as [|t ts b bs v vs T E _ [IH1 IH2]]; [split; reflexivity|].
  pose proof (value_encoding_len _ _ _ _ T E) as L.
  rewrite types_size_cons, lenN_app. split; [|lia].
  cbn [decode_all]. rewrite takeN_app_exact, dropN_app_exact by lia.
  rewrite IH1 at 1. f_equal. rewrite (value_encoding_eq _ _ _ _ T E). symmetry. now apply value_roundtrip.
Qed.

Lemma read_slice_decodes ev ts buf pos : Forall vtype_ok ts -> pos + types_size ts <= lenN buf ->
  decodes ev ts (slice buf pos (types_size ts)) (decode_all ev ts (dropN pos buf)).
Proof.
  intros Hts H. rewrite decode_all_take by (rewrite lenN_dropN; lia). unfold slice.
  apply decode_all_decodes; [exact Hts|]. rewrite lenN_takeN, lenN_dropN. lia.
Qed.

(** ** Single try_read *)

Lemma try_read1_char ev t buf :
  try_read1 ev t buf = Ok (if lenN buf <? value_size t then RErr rd_insufficient_buffer
                           else RVal (value_of_bytes ev t (takeN (value_size t) buf))).
Proof.
  unfold try_read1. destruct (N.ltb_spec (lenN buf) (value_size t)); [reflexivity|].
  rewrite unchecked_read_ok by lia. cbn [obind noexcept]. unfold slice. now rewrite dropN_0.
Qed.

Lemma value_size_pos t : vtype_ok t -> 0 < value_size t.
Proof. unfold vtype_ok, value_size. lia. Qed.

Lemma try_read_at1_char ev t pos buf : vtype_ok t -> pos < size_mod -> value_size t < size_mod -> lenN buf < size_mod ->
  try_read_at1 ev t pos buf =
    Ok (if size_mod <=? pos + value_size t then RErr rd_invalid_position_offset
        else if lenN buf <? pos + value_size t then RErr rd_insufficient_buffer
        else RVal (value_of_bytes ev t (slice buf pos (value_size t)))).
Proof.
  intros Ht Hp Hs Hb. unfold try_read_at1. pose proof (value_size_pos t Ht) as P.
  pose proof (sz_add_wraps pos (value_size t) Hp Hs) as W.
  destruct (N.leb_spec size_mod (pos + value_size t)).
  - now rewrite (proj2 (N.ltb_lt _ _)) by (apply W; lia).
  - rewrite (proj2 (N.ltb_ge _ _)) by lia.
    destruct (N.leb_spec (lenN buf) pos).
    + now rewrite (proj2 (N.ltb_lt _ _)) by lia.
    + rewrite span_ok by lia. cbn [obind]. rewrite try_read1_char. cbn [noexcept]. rewrite lenN_dropN.
      destruct (N.ltb_spec (lenN buf - pos) (value_size t));
        destruct (N.ltb_spec (lenN buf) (pos + value_size t)); try lia; reflexivity.
Qed.

(** ** Range reads *)

Definition decode_range (ev : env) (t : vtype) (k : nat) (bs : list byte) : list value :=
  decode_all ev (repeat t k) bs.

Lemma types_size_repeat t k : types_size (repeat t k) = N.of_nat k * value_size t.
Proof.
  induction k as [|k IH]; [reflexivity|]. cbn [repeat]. rewrite types_size_cons, IH.
  lia.
Qed.

Lemma generate_recursive_read ev t k : forall buf pos,
  generate ev t k buf pos = recursive_read ev (repeat t k) buf pos.
Proof.
  induction k as [|k IH]; intros buf pos; cbn [generate recursive_read repeat]; [reflexivity|].
  destruct (unchecked_read ev t buf pos) as [[v p]| | | |]; cbn [obind]; try reflexivity.
  now rewrite IH.
Qed.

Lemma range_bytes_small t k : N.of_nat k * value_size t < size_mod ->
  range_bytes (scalar_of t) (N.of_nat k) = N.of_nat k * value_size t.
Proof. intros H. unfold range_bytes. fold (value_size t). now rewrite sz_mul_small. Qed.

Lemma read_range_char ev t k buf : N.of_nat k * value_size t < size_mod ->
  read_range ev t k buf = if lenN buf <? N.of_nat k * value_size t then Throw out_of_range
                          else Ok (decode_range ev t k buf).
Proof.
  intros H. unfold read_range. rewrite range_bytes_small by exact H.
  destruct (N.ltb_spec (lenN buf) (N.of_nat k * value_size t)); [reflexivity|].
  rewrite generate_recursive_read, recursive_read_ok by (rewrite types_size_repeat; lia). now rewrite dropN_0.
Qed.

Lemma try_read_range_char ev t k buf : N.of_nat k * value_size t < size_mod ->
  try_read_range ev t k buf = Ok (if lenN buf <? N.of_nat k * value_size t then RErr rd_insufficient_buffer
                          else RVal (decode_range ev t k buf)).
Proof.
  intros H. unfold try_read_range. rewrite range_bytes_small by exact H.
  destruct (N.ltb_spec (lenN buf) (N.of_nat k * value_size t)); [reflexivity|].
  rewrite generate_recursive_read, recursive_read_ok by (rewrite types_size_repeat; lia). now rewrite dropN_0.
Qed.

Lemma read_range_at_char ev t k pos buf : let n := N.of_nat k * value_size t in
  pos < size_mod -> n < size_mod -> lenN buf < size_mod ->
  read_range_at ev t k pos buf =
    if size_mod <=? pos + n then Throw invalid_argument
    else if lenN buf <? pos + n then Throw out_of_range
    else Ok (decode_range ev t k (dropN pos buf)).
Proof.
  intros n Hp Hs Hb. unfold read_range_at. rewrite range_bytes_small by exact Hs. fold n.
  pose proof (sz_add_wraps pos n Hp Hs) as W.
  destruct (N.leb_spec size_mod (pos + n)).
  - now rewrite (proj2 (N.ltb_lt _ _)) by (apply W; lia).
  - rewrite (proj2 (N.ltb_ge _ _)) by lia.
    destruct (N.ltb_spec (lenN buf) pos).
    + now rewrite (proj2 (N.ltb_lt _ _)) by lia.
    + rewrite span_ok by lia. cbn [obind]. rewrite read_range_char by exact Hs. rewrite lenN_dropN. fold n.
      destruct (N.ltb_spec (lenN buf - pos) n); destruct (N.ltb_spec (lenN buf) (pos + n)); try lia; reflexivity.
Qed.

Lemma try_read_range_at_char ev t k pos buf : let n := N.of_nat k * value_size t in
  pos < size_mod -> n < size_mod -> lenN buf < size_mod ->
  try_read_range_at ev t k pos buf =
    Ok (if size_mod <=? pos + n then RErr rd_invalid_position_offset
    else if (lenN buf <=? pos) || (lenN buf <? pos + n) then RErr rd_insufficient_buffer
    else RVal (decode_range ev t k (dropN pos buf))).
Proof.
  intros n Hp Hs Hb. unfold try_read_range_at. rewrite range_bytes_small by exact Hs. fold n.
  pose proof (sz_add_wraps pos n Hp Hs) as W.
  destruct (N.leb_spec size_mod (pos + n)).
  - now rewrite (proj2 (N.ltb_lt _ _)) by (apply W; lia).
  - rewrite (proj2 (N.ltb_ge _ _)) by lia.
    destruct (N.leb_spec (lenN buf) pos); cbn [orb]; [reflexivity|].
    rewrite span_ok by lia. cbn [obind]. rewrite try_read_range_char by exact Hs. rewrite lenN_dropN. fold n.
    destruct (N.ltb_spec (lenN buf - pos) n); destruct (N.ltb_spec (lenN buf) (pos + n)); try lia; reflexivity.
Qed.

(** ** Several values *)


(** number of leading types that fit in [room] bytes *)
Fixpoint fit_count (ts : list vtype) (room : N) : nat :=
  match ts with
  | [] => 0
  | t :: r => if value_size t <=? room then S (fit_count r (room - value_size t)) else 0
  end.

Lemma fit_count_le ts room : (fit_count ts room <= length ts)%nat.
Proof.
  revert room; induction ts as [|t r IH]; intros room; cbn; [lia|].
  destruct (_ <=? _); [specialize (IH (room - value_size t)); lia|lia].
Qed.
Lemma fit_count_fits ts room : types_size (firstn (fit_count ts room) ts) <= room.
Proof.
  revert room; induction ts as [|t r IH]; intros room; cbn [fit_count firstn]; [cbn; lia|].
  destruct (N.leb_spec (value_size t) room); cbn [firstn]; [|cbn; lia].
  rewrite types_size_cons. specialize (IH (room - value_size t)). lia.
Qed.
Lemma fit_count_max ts room : (fit_count ts room < length ts)%nat ->
  room < types_size (firstn (S (fit_count ts room)) ts).
Proof.
  revert room; induction ts as [|t r IH]; intros room; cbn [fit_count]; [cbn; lia|].
  destruct (N.leb_spec (value_size t) room); cbn [length]; intros Hl.
  - specialize (IH (room - value_size t) ltac:(lia)).
    change (firstn (S (S ?k)) (t :: r)) with (t :: firstn (S k) r). rewrite types_size_cons. lia.
  - cbn [firstn]. rewrite types_size_cons. lia.
Qed.

Lemma try_read_empty ev ts : Forall vtype_ok ts ->
  try_read ev ts [] = Ok (repeat (RErr rd_insufficient_buffer) (length ts)).
Proof.
  induction 1 as [|t r Ht Hr IH]; [reflexivity|]. cbn [try_read].
  rewrite try_read1_char. rewrite lenN_nil. pose proof (value_size_pos t Ht).
  rewrite (proj2 (N.ltb_lt _ _)) by lia. cbn [obind is_ok]. rewrite IH. reflexivity.
Qed.

Lemma try_read_char ev ts : Forall vtype_ok ts -> forall buf,
  let j := fit_count ts (lenN buf) in
  try_read ev ts buf = Ok (map RVal (decode_all ev (firstn j ts) buf)
                           ++ repeat (RErr rd_insufficient_buffer) (length ts - j)).
Proof.
  induction 1 as [|t r Ht Hr IH]; intros buf; [reflexivity|].
  cbn [try_read fit_count]. rewrite try_read1_char.
  destruct (N.leb_spec (value_size t) (lenN buf)) as [L|L].
  - rewrite (proj2 (N.ltb_ge _ _)) by lia. cbn [obind is_ok]. rewrite span_ok by lia. cbn [obind].
    rewrite IH, lenN_dropN. cbn [obind firstn decode_all map app length Nat.sub]. reflexivity.
  - rewrite (proj2 (N.ltb_lt _ _)) by lia. cbn [obind is_ok]. rewrite try_read_empty by exact Hr. reflexivity.
Qed.

Lemma try_read_at_past ev ts : Forall vtype_ok ts -> forall pos buf,
  lenN buf < size_mod -> pos + types_size ts < size_mod -> lenN buf <= pos ->
  try_read_at ev ts pos buf = Ok (repeat (RErr rd_insufficient_buffer) (length ts)).
Proof.
  induction 1 as [|t r Ht Hr IH]; intros pos buf Hb Hs Hp; [reflexivity|].
  rewrite types_size_cons in Hs. pose proof (value_size_pos t Ht). cbn [try_read_at].
  rewrite try_read_at1_char by (try exact Ht; lia).
  rewrite (proj2 (N.leb_gt _ _)) by lia. rewrite (proj2 (N.ltb_lt _ _)) by lia. cbn [obind].
  rewrite sz_add_small by lia. rewrite IH by lia. reflexivity.
Qed.

(** after the first type that does not fit nothing fits any more *)
Lemma try_read_at_none ev ts : Forall vtype_ok ts -> forall pos buf,
  lenN buf < size_mod -> pos + types_size ts < size_mod ->
  match ts with [] => True | t :: _ => lenN buf < pos + value_size t end ->
  try_read_at ev ts pos buf = Ok (repeat (RErr rd_insufficient_buffer) (length ts)).
Proof.
  destruct ts as [|t r]; [reflexivity|]. intros Hok pos buf Hb Hs Hn.
  inversion Hok as [|? ? Ht Hr]; subst. rewrite types_size_cons in Hs. pose proof (value_size_pos t Ht).
  cbn [try_read_at]. rewrite try_read_at1_char by (try exact Ht; lia).
  rewrite (proj2 (N.leb_gt _ _)) by lia. rewrite (proj2 (N.ltb_lt _ _)) by lia. cbn [obind].
  rewrite sz_add_small by lia. rewrite try_read_at_past by (try assumption; lia). reflexivity.
Qed.

Lemma try_read_at_char ev ts : Forall vtype_ok ts -> forall pos buf,
  lenN buf < size_mod -> pos + types_size ts < size_mod ->
  let j := fit_count ts (lenN buf - pos) in
  try_read_at ev ts pos buf = Ok (map RVal (decode_all ev (firstn j ts) (dropN pos buf))
                           ++ repeat (RErr rd_insufficient_buffer) (length ts - j)).
Proof.
  induction 1 as [|t r Ht Hr IH]; intros pos buf Hb Hs; [reflexivity|].
  cbn zeta. cbn [fit_count]. pose proof (value_size_pos t Ht) as P. pose proof Hs as Hs'. rewrite types_size_cons in Hs'.
  destruct (N.leb_spec (value_size t) (lenN buf - pos)) as [L|L].
  - cbn [try_read_at]. rewrite try_read_at1_char by (try exact Ht; lia).
    rewrite (proj2 (N.leb_gt _ _)) by lia. rewrite (proj2 (N.ltb_ge _ _)) by lia. cbn [obind].
    rewrite sz_add_small by lia. rewrite IH by lia. cbn [obind firstn decode_all map app length Nat.sub].
    rewrite dropN_dropN. replace (lenN buf - (pos + value_size t)) with (lenN buf - pos - value_size t) by lia.
    replace (value_size t + pos) with (pos + value_size t) by lia. reflexivity.
  - rewrite try_read_at_none; [reflexivity|constructor; assumption|lia|lia|lia].
Qed.

(** ** Round trips *)

Definition args_of (ts : list vtype) (vs : list value) : list warg :=
  map (fun p => AVal (fst p) (snd p)) (combine ts vs).

Lemma decode_enc ev ts vs : Forall2 typed ts vs -> forall tail,
  decode_all ev ts (enc_args ev (args_of ts vs) ++ tail) = vs.
Proof.
  induction 1 as [|t v ts vs T H IH]; intros tail; [reflexivity|].
  cbn [args_of combine map]. change (enc_args ev (?a :: ?x)) with (enc_arg ev a ++ enc_args ev x).
  cbn [enc_arg fst snd decode_all]. pose proof (lenN_bytes_of_value ev t v T) as L.
  rewrite <- app_assoc. rewrite takeN_app_exact, dropN_app_exact by lia. f_equal.
  - now apply value_roundtrip.
  - apply IH.
Qed.

Lemma args_of_ok ts vs : Forall2 typed ts vs -> Forall arg_ok (args_of ts vs).
Proof. induction 1; cbn; constructor; assumption. Qed.
Lemma args_of_size ts vs : length ts = length vs -> args_size (args_of ts vs) = types_size ts.
Proof.
  revert vs; induction ts as [|t ts IH]; intros [|v vs] H; cbn in H; try lia; [reflexivity|].
  cbn [args_of combine map].
  change (args_size (?a :: ?x)) with (arg_bytes a + args_size x). rewrite types_size_cons.
  f_equal. apply IH. lia.
Qed.
Lemma dropN_splice buf pos bs : pos + lenN bs <= lenN buf ->
  dropN pos (splice buf pos bs) = bs ++ dropN (pos + lenN bs) buf.
Proof. intros H. unfold splice. apply dropN_app_exact. rewrite lenN_takeN. lia. Qed.

Lemma write_at_read_at ev ts vs pos buf buf' n :
  Forall2 typed ts vs -> pos < size_mod -> lenN buf < size_mod -> types_size ts < size_mod ->
  write_at ev (args_of ts vs) pos buf = (buf', Ok n) ->
  read_at ev ts pos buf' = Ok vs.
Proof.
  intros T Hp Hb Hs. pose proof (Forall2_length _ _ _ T) as Hlen.
  pose proof (args_of_ok ts vs T) as Hok. pose proof (args_of_size ts vs Hlen) as Hsz.
  pose proof (lenN_enc_args ev _ Hok) as Hl.
  rewrite write_at_char by (try exact Hok; lia). rewrite Hsz in *.
  destruct (N.leb_spec size_mod (pos + types_size ts)); [discriminate|].
  destruct (N.ltb_spec (lenN buf) (pos + types_size ts)); [discriminate|].
  intros E. injection E as E _. subst buf'.
  rewrite read_at_char by (rewrite ?lenN_splice; lia). rewrite lenN_splice by lia.
  rewrite (proj2 (N.leb_gt _ _)) by lia. rewrite (proj2 (N.ltb_ge _ _)) by lia.
  rewrite dropN_splice by lia. now rewrite decode_enc.
Qed.

Lemma splice_0_whole buf bs : lenN bs = lenN buf -> splice buf 0 bs = bs.
Proof.
  intros H. unfold splice. rewrite takeN_0, dropN_all by lia. cbn [app]. apply app_nil_r.
Qed.

Lemma lenN_zero_bytes n : lenN (zero_bytes n) = n.
Proof. unfold zero_bytes. rewrite lenN_repeat. lia. Qed.

Lemma to_bytes_char ev t v : typed t v -> value_size t < size_mod -> to_bytes ev t v = Ok (bytes_of_value ev t v).
Proof.
  intros T H. unfold to_bytes. pose proof (lenN_bytes_of_value ev t v T) as L.
  rewrite write_char; [|constructor; [exact T|constructor]|rewrite lenN_zero_bytes; lia|unfold args_size; cbn [map sum fold_right arg_bytes]; lia].
  unfold args_size. cbn [map sum fold_right arg_bytes]. rewrite lenN_zero_bytes, N.add_0_r, N.ltb_irrefl.
  unfold enc_args. cbn [map concat enc_arg]. rewrite app_nil_r. f_equal.
  apply splice_0_whole. rewrite lenN_zero_bytes. exact L.
Qed.

Lemma try_to_bytes_char ev t v : typed t v -> value_size t < size_mod ->
  try_to_bytes ev t v = Ok (RVal (bytes_of_value ev t v)).
Proof.
  intros T H. unfold try_to_bytes. pose proof (lenN_bytes_of_value ev t v T) as L.
  rewrite try_write1_char; [|exact T|rewrite lenN_zero_bytes; lia|cbn [arg_bytes]; lia].
  cbn [arg_bytes enc_arg]. rewrite lenN_zero_bytes, N.ltb_irrefl. do 2 f_equal.
  apply splice_0_whole. rewrite lenN_zero_bytes. exact L.
Qed.

Lemma from_bytes_char ev t b : value_size t < size_mod ->
  from_bytes ev t b = if lenN b <? value_size t then Throw out_of_range
                      else Ok [value_of_bytes ev t (takeN (value_size t) b)].
Proof.
  intros H. unfold from_bytes. rewrite read_char; rewrite types_size_cons; change (types_size []) with 0; rewrite N.add_0_r; [|lia].
  reflexivity.
Qed.

(** ranges *)
Lemma decode_range_enc ev s vs : Forall (value_ok s) vs -> forall tail,
  decode_range ev (TPlain s) (length vs) (enc_arg ev (ARange s vs) ++ tail) = vs.
Proof.
  unfold decode_range. induction 1 as [|v vs T H IH]; intros tail; [reflexivity|].
  cbn [length repeat enc_arg map concat decode_all]. cbn [enc_arg] in IH.
  pose proof (lenN_bytes_of_value ev (TPlain s) v T) as L.
  rewrite <- app_assoc. rewrite takeN_app_exact, dropN_app_exact by lia. f_equal.
  - now apply (value_roundtrip ev (TPlain s)).
  - apply IH.
Qed.

(** ** Multi-value try_write_at *)

Lemma try_write_at_char ev args : args <> [] -> Forall arg_ok args ->
  Forall (fun a => 0 < arg_bytes a < size_mod) args -> forall pos buf,
  pos < size_mod -> lenN buf < size_mod ->
  exists r, try_write_at ev args pos buf =
    (if pos <=? lenN buf then splice buf pos (enc_args ev (fit_prefix args (lenN buf - pos))) else buf, Ok r) /\
    if pos + args_size args <=? lenN buf then r = RVal (pos + args_size args)
    else exists e, r = RErr e /\ (pos + args_size args < size_mod -> e = wr_insufficient_buffer).
Proof.
  intros Hne Ha. induction Ha as [|a r Ha Hr IH]; [easy|]. intros Hs pos buf Hp Hb.
  inversion Hs as [|a' r' Hsa Hsr]; subst a' r'.
  pose proof (lenN_enc_arg ev a Ha) as Hl.
  cbn [try_write_at]. rewrite try_write_at1_char by (try exact Ha; lia).
  change (args_size (a :: r)) with (arg_bytes a + args_size r). cbn [fit_prefix].
  destruct (N.leb_spec size_mod (pos + arg_bytes a)) as [W|W].
  - rewrite (proj2 (N.leb_gt (arg_bytes a) _)) by lia. rewrite (proj2 (N.leb_gt (pos + _) _)) by lia.
    eexists; split.
    + destruct (N.leb_spec pos (lenN buf)); [|reflexivity]. unfold enc_args. cbn [map concat]. rewrite splice_nil by lia. reflexivity.
    + eexists; split; [reflexivity|lia].
  - destruct (N.leb_spec (lenN buf) pos) as [P|P]; cbn [orb];
      [|destruct (N.ltb_spec (lenN buf) (pos + arg_bytes a)) as [Q|Q]].
    + rewrite (proj2 (N.leb_gt (arg_bytes a) _)) by lia. rewrite (proj2 (N.leb_gt (pos + _) _)) by lia.
      eexists; split.
      * destruct (N.leb_spec pos (lenN buf)); [|reflexivity]. unfold enc_args. cbn [map concat]. rewrite splice_nil by lia. reflexivity.
      * eexists; split; [reflexivity|reflexivity].
    + rewrite (proj2 (N.leb_gt (arg_bytes a) _)) by lia. rewrite (proj2 (N.leb_gt (pos + _) _)) by lia.
      eexists; split.
      * destruct (N.leb_spec pos (lenN buf)); [|reflexivity]. unfold enc_args. cbn [map concat]. rewrite splice_nil by lia. reflexivity.
      * eexists; split; [reflexivity|reflexivity].
    + rewrite (proj2 (N.leb_le (arg_bytes a) _)) by lia. rewrite (proj2 (N.leb_le pos _)) by lia.
      change (enc_args ev (a :: ?x)) with (enc_arg ev a ++ enc_args ev x).
      destruct r as [|b r'].
      * cbn [fit_prefix]. unfold enc_args, args_size, sum. cbn [map concat fold_right].
        rewrite app_nil_r, N.add_0_r. rewrite (proj2 (N.leb_le _ _)) by lia. eexists; split; reflexivity.
      * destruct (IH ltac:(easy) Hsr (pos + arg_bytes a) (splice buf pos (enc_arg ev a))) as (res & E & R);
          [lia|rewrite lenN_splice; lia|].
        rewrite lenN_splice in E, R by lia.
        rewrite (proj2 (N.leb_le (pos + arg_bytes a) _)) in E by lia.
        replace (lenN buf - (pos + arg_bytes a)) with (lenN buf - pos - arg_bytes a) in E by lia.
        set (pre := fit_prefix (b :: r') (lenN buf - pos - arg_bytes a)) in *.
        assert (Hpre : lenN (enc_args ev pre) <= lenN buf - pos - arg_bytes a).
        { rewrite lenN_enc_args by (apply fit_prefix_ok; exact Hr). apply fit_prefix_size. }
        exists res. split.
        -- rewrite E. rewrite <- Hl, splice_splice by lia. reflexivity.
        -- rewrite <- N.add_assoc in R. exact R.
Qed.
