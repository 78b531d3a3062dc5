(** Exactly which writes of ranges run past the buffer. *)
From Coq Require Import List. Import ListNotations.
From Verif Require Import Base BaseFacts Io_Model Io_Spec Io_Proofs IoRead_Proofs Io_PropLemmas.

Lemma byte_count_mod args : byte_count args = args_size args mod size_mod.
Proof.
  assert (Z : size_mod <> 0) by now rewrite size_mod_val.
  unfold args_size. induction args as [|a r IH]; cbn [map byte_count]; [reflexivity|].
  rewrite sum_cons, IH. unfold sz_add. rewrite N.add_mod_idemp_r by exact Z.
  destruct a as [t v|s vs]; cbn [arg_size arg_bytes]; [reflexivity|].
  unfold range_bytes, sz_mul. now rewrite N.add_mod_idemp_l by exact Z.
Qed.

Lemma write_range_elems_over ev s vs : Forall (value_ok s) vs -> forall buf pos done,
  pos <= lenN buf -> lenN buf < pos + lenN (concat (map (bytes_of_value ev (TPlain s)) vs)) ->
  snd (write_range_elems ev s vs buf pos done) = UB.
Proof.
  induction 1 as [|v vs Hv Hvs IH]; intros buf pos done; cbn [map concat write_range_elems]; intros Hp Ho.
  - rewrite lenN_nil in Ho. lia.
  - assert (Hb : lenN (bytes_of_value ev (TPlain s) v) = value_size (TPlain s)) by now apply (lenN_bytes_of_value ev (TPlain s)).
    rewrite lenN_app in Ho. set (b := bytes_of_value ev (TPlain s) v) in *.
    destruct (N.leb_spec (pos + lenN b) (lenN buf)).
    + rewrite store_ok by assumption. rewrite <- Hb. rewrite advance_ok by (rewrite lenN_splice; lia).
      apply IH; rewrite lenN_splice by assumption; lia.
    + rewrite store_ub by assumption. reflexivity.
Qed.

Lemma unchecked_write_over ev a buf pos : arg_ok a -> pos <= lenN buf -> lenN buf < pos + arg_bytes a ->
  snd (unchecked_write ev a buf pos) = UB.
Proof.
  intros Ha Hp Ho. pose proof (lenN_enc_arg ev a Ha) as Hl.
  destruct a as [t v|s vs]; cbn [unchecked_write enc_arg arg_bytes] in *.
  - rewrite store_ub by lia. reflexivity.
  - apply write_range_elems_over; [apply Ha|assumption|lia].
Qed.

Lemma recursive_unsafe_write_over ev args : Forall arg_ok args -> forall buf pos,
  lenN buf < size_mod -> pos <= lenN buf -> lenN buf < pos + args_size args ->
  snd (recursive_unsafe_write ev args buf pos) = UB.
Proof.
  induction 1 as [|a r Ha Hr IH]; intros buf pos Hlt Hp Ho; cbn [recursive_unsafe_write].
  - unfold args_size in Ho. cbn in Ho. lia.
  - change (args_size (a :: r)) with (arg_bytes a + args_size r) in *.
    pose proof (lenN_enc_arg ev a Ha) as Hl.
    destruct (N.leb_spec (pos + arg_bytes a) (lenN buf)).
    + rewrite unchecked_write_ok by (try exact Ha; lia).
      destruct r as [|a' r']; [unfold args_size in Ho; cbn in Ho; lia|].
      rewrite arg_size_small by lia. rewrite advance_ok by (rewrite lenN_splice; lia).
      specialize (IH (splice buf pos (enc_arg ev a)) (pos + arg_bytes a)).
      rewrite lenN_splice in IH by lia.
      destruct (recursive_unsafe_write ev (a' :: r') (splice buf pos (enc_arg ev a)) (pos + arg_bytes a)) as [b o].
      cbn [snd] in IH. rewrite IH by lia. reflexivity.
    + pose proof (unchecked_write_over ev a buf pos Ha Hp ltac:(lia)) as U.
      destruct (unchecked_write ev a buf pos) as [b o]. cbn [snd] in U. subst o. reflexivity.
Qed.

Lemma write_overrun_exact ev args buf :
  args <> [] -> Forall arg_ok args -> lenN buf < size_mod ->
  let n := args_size args in
  (lenN buf < n mod size_mod -> write ev args buf = (buf, Throw out_of_range)) /\
  (n mod size_mod <= lenN buf -> n <= lenN buf -> exists buf', write ev args buf = (buf', Ok n) /\ lenN buf' = lenN buf) /\
  (n mod size_mod <= lenN buf -> lenN buf < n -> snd (write ev args buf) = UB).
Proof.
  intros _ Hok Hb n. unfold write. rewrite byte_count_mod. fold n. split; [|split].
  - intros H. now rewrite (proj2 (N.ltb_lt _ _) H).
  - intros H Hn. rewrite (proj2 (N.ltb_ge _ _) H). rewrite recursive_unsafe_write_ok by (try assumption; lia).
    eexists. split; [reflexivity|]. apply lenN_splice. rewrite lenN_enc_args by assumption. exact Hn.
  - intros H Hn. rewrite (proj2 (N.ltb_ge _ _) H). apply recursive_unsafe_write_over; assumption || lia.
Qed.

Lemma write_at_overrun_exact ev args pos buf :
  args <> [] -> Forall arg_ok args -> pos < size_mod -> lenN buf < size_mod ->
  let n := args_size args in
  (size_mod <= pos + n mod size_mod -> write_at ev args pos buf = (buf, Throw invalid_argument)) /\
  (pos + n mod size_mod < size_mod -> lenN buf < pos + n mod size_mod -> write_at ev args pos buf = (buf, Throw out_of_range)) /\
  (pos + n mod size_mod <= lenN buf -> pos + n <= lenN buf ->
     exists buf', write_at ev args pos buf = (buf', Ok (pos + n)) /\ lenN buf' = lenN buf) /\
  (pos + n mod size_mod <= lenN buf -> lenN buf < pos + n -> snd (write_at ev args pos buf) = UB).
Proof.
  intros _ Hok Hp Hb n. unfold write_at. rewrite byte_count_mod. fold n.
  assert (M : n mod size_mod < size_mod) by (apply N.mod_lt; now rewrite size_mod_val).
  pose proof (sz_add_wraps pos (n mod size_mod) Hp M) as W.
  split; [|split; [|split]].
  - intros H. now rewrite (proj2 (N.ltb_lt _ _) (proj2 W H)).
  - intros H H1. rewrite sz_add_small by exact H. rewrite (proj2 (N.ltb_ge _ _)) by lia.
    now rewrite (proj2 (N.ltb_lt _ _) H1).
  - intros H Hn. rewrite sz_add_small by lia. rewrite !(proj2 (N.ltb_ge _ _)) by lia.
    rewrite recursive_unsafe_write_ok by (try assumption; fold n; lia). fold n. rewrite sz_add_small by lia.
    eexists. split; [reflexivity|]. apply lenN_splice. rewrite lenN_enc_args by assumption. exact Hn.
  - intros H Hn. rewrite sz_add_small by lia. rewrite !(proj2 (N.ltb_ge _ _)) by lia.
    pose proof (recursive_unsafe_write_over ev args Hok buf pos Hb ltac:(lia) Hn) as U.
    destruct (recursive_unsafe_write ev args buf pos) as [b o]. cbn [snd] in U. now subst o.
Qed.

Lemma try_write_overrun_exact ev s vs buf :
  arg_ok (ARange s vs) -> lenN buf < size_mod ->
  let n := lenN vs * N.of_nat (scalar_bytes s) in
  (lenN buf < n mod size_mod -> try_write ev [ARange s vs] buf = (buf, Ok (RErr wr_insufficient_buffer))) /\
  (n mod size_mod <= lenN buf -> n <= lenN buf -> exists buf', try_write ev [ARange s vs] buf = (buf', Ok (RVal n)) /\ lenN buf' = lenN buf) /\
  (n mod size_mod <= lenN buf -> lenN buf < n -> snd (try_write ev [ARange s vs] buf) = UB).
Proof.
  intros Hok Hb n. set (a := ARange s vs) in *. change n with (arg_bytes a) in *. clear n.
  cbn [try_write]. unfold try_write1. change (arg_size a) with (arg_bytes a mod size_mod).
  split; [|split].
  - intros H. rewrite (proj2 (N.ltb_lt _ _) H). reflexivity.
  - intros H Hn. rewrite (proj2 (N.ltb_ge _ _) H). rewrite unchecked_write_ok by (try assumption; lia).
    cbn [omap obind noexcept]. eexists. split; [reflexivity|]. apply lenN_splice. rewrite lenN_enc_arg by assumption. exact Hn.
  - intros H Hn. rewrite (proj2 (N.ltb_ge _ _) H).
    pose proof (unchecked_write_over ev a buf 0 Hok ltac:(lia) ltac:(lia)) as U.
    destruct (unchecked_write ev a buf 0) as [b o]. cbn [snd] in U. now subst o.
Qed.

Lemma types_size_firstn_le j ts : types_size (firstn j ts) <= types_size ts.
Proof.
  rewrite <- (firstn_skipn j ts) at 2. generalize (firstn j ts), (skipn j ts). intros a b.
  induction a as [|t a IH]; [cbn [app]; change (types_size []) with 0; lia|]. cbn [app]. rewrite !types_size_cons. lia.
Qed.

Lemma takeN_eq_shorter {A} (l l' : list A) n m : m <= n -> takeN n l = takeN n l' -> takeN m l = takeN m l'.
Proof.
  unfold takeN. intros H E. pose proof (f_equal (firstn (N.to_nat m)) E) as E2. rewrite !firstn_firstn in E2.
  now rewrite Nat.min_l in E2 by lia.
Qed.

Lemma other_bytes_try_read ev ts buf buf2 : Forall vtype_ok ts -> lenN buf2 = lenN buf ->
  slice buf2 0 (types_size ts) = slice buf 0 (types_size ts) -> try_read ev ts buf2 = try_read ev ts buf.
Proof.
  intros Hok Hl E. rewrite !try_read_char by assumption. rewrite Hl. do 2 f_equal. f_equal.
  pose proof (fit_count_fits ts (lenN buf)) as F. set (j := fit_count ts (lenN buf)) in *.
  rewrite (decode_all_take ev (firstn j ts) buf2), (decode_all_take ev (firstn j ts) buf) by lia. f_equal.
  unfold slice in E. rewrite !dropN_0 in E. apply takeN_eq_shorter with (n := types_size ts); [apply types_size_firstn_le|exact E].
Qed.

Lemma other_bytes_try_read_at ev ts pos buf buf2 : Forall vtype_ok ts -> lenN buf < size_mod ->
  pos + types_size ts < size_mod -> lenN buf2 = lenN buf ->
  slice buf2 pos (types_size ts) = slice buf pos (types_size ts) -> try_read_at ev ts pos buf2 = try_read_at ev ts pos buf.
Proof.
  intros Hok Hb Hs Hl E. rewrite !try_read_at_char by (assumption || lia). rewrite Hl. do 2 f_equal. f_equal.
  pose proof (fit_count_fits ts (lenN buf - pos)) as F. set (j := fit_count ts (lenN buf - pos)) in *.
  rewrite (decode_all_take ev (firstn j ts) (dropN pos buf2)), (decode_all_take ev (firstn j ts) (dropN pos buf)) by (rewrite lenN_dropN; lia).
  f_equal. unfold slice in E. apply takeN_eq_shorter with (n := types_size ts); [apply types_size_firstn_le|exact E].
Qed.

Lemma other_bytes_read ev ts buf buf2 : types_size ts < size_mod -> lenN buf2 = lenN buf ->
  slice buf2 0 (types_size ts) = slice buf 0 (types_size ts) -> read ev ts buf2 = read ev ts buf.
Proof.
  intros Hs Hl E. rewrite !read_char by assumption. rewrite Hl. destruct (N.ltb_spec (lenN buf) (types_size ts)); [reflexivity|].
  f_equal. rewrite (decode_all_take ev ts buf2), (decode_all_take ev ts buf) by lia. unfold slice in E. rewrite !dropN_0 in E. now rewrite E.
Qed.

Lemma other_bytes_all ev ts buf buf2 pos : Forall vtype_ok ts -> lenN buf < size_mod -> types_size ts < size_mod ->
  lenN buf2 = lenN buf ->
  (slice buf2 0 (types_size ts) = slice buf 0 (types_size ts) ->
     read ev ts buf2 = read ev ts buf /\ try_read ev ts buf2 = try_read ev ts buf) /\
  (pos + types_size ts < size_mod -> slice buf2 pos (types_size ts) = slice buf pos (types_size ts) ->
     try_read_at ev ts pos buf2 = try_read_at ev ts pos buf).
Proof.
  intros Hok Hb Hs Hl. split.
  - intros E. split; [now apply other_bytes_read|now apply other_bytes_try_read].
  - intros Hp E. now apply other_bytes_try_read_at.
Qed.
