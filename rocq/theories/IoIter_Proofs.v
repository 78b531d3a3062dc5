(** Writing through iterators. *)
From Coq Require Import List. Import ListNotations.
From Verif Require Import Base BaseFacts Io_Model Io_Spec Io_Proofs IoRead_Proofs Io_PropLemmas IoOverrun_Proofs IoIter_Model.

Lemma dropN_takeN {A} k n (l : list A) : dropN k (takeN n l) = takeN (n - k) (dropN k l).
Proof. unfold dropN, takeN. rewrite skipn_firstn_comm. f_equal. lia. Qed.
Lemma part_len (buf : list byte) a b : a <= b -> b <= lenN buf -> lenN (takeN (b - a) (dropN a buf)) = b - a.
Proof. intros H K. rewrite lenN_takeN, lenN_dropN. lia. Qed.
Lemma part_splice (buf : list byte) a b bs : a <= b -> b <= lenN buf -> a + lenN bs <= b ->
  takeN a buf ++ splice (takeN (b - a) (dropN a buf)) 0 bs ++ dropN b buf = splice buf a bs.
Proof.
  intros H K L. unfold splice. rewrite takeN_0. cbn [app]. rewrite <- !app_assoc. do 2 f_equal. cbn [app].
  rewrite N.add_0_l. rewrite dropN_takeN, dropN_dropN.
  replace (lenN bs + a) with (a + lenN bs) by lia.
  rewrite <- (takeN_dropN (b - (a + lenN bs)) (dropN (a + lenN bs) buf)) at 2. rewrite dropN_dropN. f_equal; f_equal; lia.
Qed.
Lemma part_same (buf : list byte) a b : a <= b -> b <= lenN buf -> takeN a buf ++ takeN (b - a) (dropN a buf) ++ dropN b buf = buf.
Proof.
  intros H K. rewrite <- (takeN_dropN a buf) at 4. f_equal. rewrite <- (takeN_dropN (b - a) (dropN a buf)) at 2. rewrite dropN_dropN. do 2 f_equal. lia.
Qed.
Lemma on_part_in A buf a b (f : list byte -> wres A) : a <= b -> b <= lenN buf ->
  on_part buf a b f = let '(sp, o) := f (takeN (b - a) (dropN a buf)) in (takeN a buf ++ sp ++ dropN b buf, o).
Proof. intros H K. unfold on_part. rewrite (proj2 (N.leb_le _ _) H), (proj2 (N.leb_le _ _) K). reflexivity. Qed.

Lemma write_iter_exact ev args bs buf a b : args <> [] -> Forall arg_ok args -> args_encoding ev args bs ->
  a <= b -> b <= lenN buf -> lenN buf < size_mod -> lenN bs < size_mod ->
  if b - a <? lenN bs then write_iter ev args buf a b = (buf, Throw out_of_range)
  else exists buf', write_iter ev args buf a b = (buf', Ok (lenN bs)) /\ overwritten buf a bs buf'.
Proof.
  intros _ Hok He H K Hb Hs. apply args_encoding_eq in He; [|exact Hok]. subst bs. pose proof (lenN_enc_args ev args Hok) as L. rewrite L in *.
  unfold write_iter. rewrite on_part_in by assumption. rewrite write_char by (rewrite ?part_len; assumption || lia). rewrite part_len by assumption.
  destruct (N.ltb_spec (b - a) (args_size args)).
  - rewrite part_same by assumption. reflexivity.
  - rewrite part_splice by (assumption || lia). eexists. split; [reflexivity|]. apply splice_overwritten. lia.
Qed.

Lemma try_write1_iter_char ev x buf a b : arg_ok x -> a <= b -> b <= lenN buf -> lenN buf < size_mod -> arg_bytes x < size_mod ->
  try_write1_iter ev x buf a b =
    if b - a <? arg_bytes x then (buf, Ok (RErr wr_insufficient_buffer)) else (splice buf a (enc_arg ev x), Ok (RVal (arg_bytes x))).
Proof.
  intros Hx H K Hb Hs. unfold try_write1_iter. rewrite on_part_in by assumption. rewrite try_write1_char by (rewrite ?part_len; assumption || lia).
  rewrite part_len by assumption. destruct (N.ltb_spec (b - a) (arg_bytes x)); [rewrite part_same by assumption; reflexivity|].
  rewrite part_splice by (rewrite ?lenN_enc_arg by exact Hx; assumption || lia). reflexivity.
Qed.
Lemma try_write_iter_char ev args : args <> [] -> Forall arg_ok args -> Forall (fun x => arg_bytes x < size_mod) args ->
  forall buf a b, a <= b -> b <= lenN buf -> lenN buf < size_mod ->
  try_write_iter ev args buf a b =
    (splice buf a (enc_args ev (fit_prefix args (b - a))), Ok (if b - a <? args_size args then RErr wr_insufficient_buffer else RVal (args_size args))).
Proof.
  intros Hne Ha. induction Ha as [|x r Hx Hr IH]; [easy|]. intros Hs buf a b H K Hb.
  inversion Hs as [|x' r' Hsx Hsr]; subst x' r'. pose proof (lenN_enc_arg ev x Hx) as Hl.
  cbn [try_write_iter]. rewrite try_write1_iter_char by assumption.
  change (args_size (x :: r)) with (arg_bytes x + args_size r). cbn [fit_prefix].
  destruct (N.ltb_spec (b - a) (arg_bytes x)).
  - rewrite (proj2 (N.leb_gt _ _)) by lia. rewrite (proj2 (N.ltb_lt _ _)) by lia.
    unfold enc_args. cbn [map concat]. now rewrite splice_nil by lia.
  - rewrite (proj2 (N.leb_le _ _)) by lia. change (enc_args ev (x :: ?y)) with (enc_arg ev x ++ enc_args ev y).
    set (pre := fit_prefix r (b - a - arg_bytes x)).
    destruct r as [|y r'].
    + subst pre. cbn [fit_prefix]. unfold enc_args, args_size, sum. cbn [map concat fold_right].
      rewrite app_nil_r, N.add_0_r. rewrite (proj2 (N.ltb_ge _ _)) by lia. reflexivity.
    + rewrite arg_size_small by lia. rewrite IH by (try easy; rewrite ?lenN_splice; lia).
      replace (b - (a + arg_bytes x)) with (b - a - arg_bytes x) by lia. fold pre.
      assert (Hpre : lenN (enc_args ev pre) <= b - a - arg_bytes x).
      { rewrite lenN_enc_args by (apply fit_prefix_ok; exact Hr). apply fit_prefix_size. }
      replace (a + arg_bytes x) with (a + lenN (enc_arg ev x)) by lia. rewrite splice_splice by lia.
      destruct (N.ltb_spec (b - a - arg_bytes x) (args_size (y :: r'))).
      * rewrite (proj2 (N.ltb_lt _ _)) by lia. reflexivity.
      * rewrite (proj2 (N.ltb_ge _ _)) by lia. now rewrite sz_add_small by lia.
Qed.
Lemma try_write_iter_prefix ev args buf a b :
  args <> [] -> Forall arg_ok args -> Forall (fun x => arg_bytes x < size_mod) args -> a <= b -> b <= lenN buf -> lenN buf < size_mod ->
  exists pre rest bs buf',
    args = pre ++ rest /\ a + args_size pre <= b /\
    match rest with [] => True | x :: _ => b < a + args_size pre + arg_bytes x end /\
    args_encoding ev pre bs /\ overwritten buf a bs buf' /\
    try_write_iter ev args buf a b = (buf', Ok (match rest with [] => RVal (args_size args) | _ :: _ => RErr wr_insufficient_buffer end)).
Proof.
  intros Hne Hok Hsm H K Hb. set (pre := fit_prefix args (b - a)).
  destruct (fit_prefix_split args (b - a)) as (rest & E & M). fold pre in E, M.
  pose proof (fit_prefix_ok args (b - a) Hok) as Hpo. fold pre in Hpo.
  pose proof (fit_prefix_size args (b - a)) as Hsz. fold pre in Hsz.
  exists pre, rest, (enc_args ev pre), (splice buf a (enc_args ev pre)). split; [exact E|]. split; [lia|].
  split; [destruct rest; [exact I|lia]|]. split; [now apply args_encoding_enc|].
  split; [apply splice_overwritten; rewrite lenN_enc_args by exact Hpo; lia|].
  rewrite try_write_iter_char by assumption. fold pre.
  assert (Ha : args_size args = args_size pre + args_size rest) by (rewrite E at 1; apply args_size_app).
  destruct rest as [|x rest].
  - change (args_size []) with 0 in Ha. now rewrite (proj2 (N.ltb_ge _ _)) by lia.
  - change (args_size (x :: rest)) with (arg_bytes x + args_size rest) in Ha. now rewrite (proj2 (N.ltb_lt _ _)) by lia.
Qed.

Lemma write_with_endian_iter_exact ev n sg z e buf a b : typed (TEnc e n sg) (VInt z) -> a <= b -> b <= lenN buf -> lenN buf < size_mod -> N.of_nat n < size_mod ->
  if b - a <? N.of_nat n then write_with_endian_iter ev n sg z e buf a b = (buf, Throw out_of_range)
  else exists bs buf', args_encoding ev [AVal (TEnc e n sg) (VInt z)] bs /\ lenN bs = N.of_nat n /\
    write_with_endian_iter ev n sg z e buf a b = (buf', Ok (N.of_nat n)) /\ overwritten buf a bs buf'.
Proof.
  intros Hz H K Hb Hn. assert (Hok : Forall arg_ok [AVal (TEnc e n sg) (VInt z)]) by (constructor; [exact Hz|constructor]).
  destruct (encoding_exists ev _ Hok) as (bs & He & Hl & _).
  assert (L : lenN bs = N.of_nat n) by (rewrite Hl; apply N.add_0_r).
  pose proof (write_iter_exact ev [AVal (TEnc e n sg) (VInt z)] bs buf a b ltac:(discriminate) Hok He H K Hb ltac:(lia)) as W. rewrite L in W.
  assert (E : write_with_endian_iter ev n sg z e buf a b = write_iter ev [AVal (TEnc e n sg) (VInt z)] buf a b) by (destruct e; reflexivity).
  rewrite E. destruct (b - a <? N.of_nat n); [exact W|]. destruct W as (buf' & W1 & W2). eauto 8.
Qed.

Lemma unchecked_write_exact ev x bs buf a : arg_ok x -> arg_encoding ev x bs -> a <= lenN buf -> lenN buf < size_mod ->
  if lenN buf <? a + lenN bs then snd (unchecked_write ev x buf a) = UB
  else exists buf', unchecked_write ev x buf a = (buf', Ok (lenN bs)) /\ overwritten buf a bs buf'.
Proof.
  intros Hx He Ha Hb. apply arg_encoding_eq in He; [|exact Hx]. subst bs. pose proof (lenN_enc_arg ev x Hx) as E. rewrite E in *.
  destruct (N.ltb_spec (lenN buf) (a + arg_bytes x)); [apply unchecked_write_over; assumption|].
  rewrite unchecked_write_ok by (assumption || lia). eexists. split; [reflexivity|]. apply splice_overwritten. lia.
Qed.
Lemma unchecked_read_exact ev t v buf a : typed t v -> value_encoding ev t v (slice buf a (value_size t)) ->
  unchecked_read ev t buf a = if lenN buf <? a + value_size t then UB else Ok (v, a + value_size t).
Proof.
  intros T He. destruct (N.ltb_spec (lenN buf) (a + value_size t)) as [L|L].
  - unfold unchecked_read, load. rewrite (proj2 (N.leb_gt _ _) L). reflexivity.
  - rewrite unchecked_read_ok by assumption. apply value_encoding_eq in He; [|exact T]. rewrite He, value_roundtrip by exact T. reflexivity.
Qed.
