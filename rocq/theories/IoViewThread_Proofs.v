From Coq Require Import List. Import ListNotations.
From Verif Require Import Base BaseFacts Io_Model Io_Spec Io_Proofs IoRead_Proofs IoView_Model IoView_Spec IoView_Proofs
  IoThread_Model IoThread_Spec IoThread_Proofs IoViewThread_Model IoViewThread_Spec.
Local Open Scope N_scope.

(** ** The accesses of one call *)

Lemma got_to_ok len p n o : n < 2 ^ 63 -> pl_get p + n <= len ->
  got_to len p (to_ptrdiff n) o = (Places (pl_get p + n) (pl_put p), VRo (Ok o)).
Proof. intros A B. unfold got_to. now rewrite advance_signed_ok. Qed.
Lemma put_to_ok len p n o : n < 2 ^ 63 -> pl_put p + n <= len ->
  put_to len p n o = (Places (pl_get p) (pl_put p + n), VWo (Ok o)).
Proof. intros A B. unfold put_to. now rewrite advance_signed_ok. Qed.

Lemma decode_slice ev ts buf pos : pos + types_size ts <= lenN buf ->
  decode_all ev ts (slice buf pos (types_size ts)) = decode_all ev ts (dropN pos buf).
Proof. intros H. unfold slice. symmetry. apply decode_all_take. rewrite lenN_dropN. lia. Qed.

Lemma values_slice ev ts buf pos : pos + types_size ts <= lenN buf ->
  values_of ev ts (slice buf pos (types_size ts)) = decode_all ev ts (dropN pos buf).
Proof. intros H. etransitivity; [apply values_of_eq|now apply decode_slice]. Qed.

Lemma try_end ts len : Forall vtype_ok ts -> try_loads ts len len = [].
Proof.
  induction 1 as [|t r Ht Hr IH]; [reflexivity|]. cbn [try_loads]. pose proof (value_size_pos t Ht).
  now rewrite (proj2 (N.ltb_lt _ _)) by lia.
Qed.
Lemma try_end_values ev ts len bs : Forall vtype_ok ts ->
  try_values ev ts len len bs = repeat (RErr rd_insufficient_buffer) (length ts).
Proof.
  induction 1 as [|t r Ht Hr IH]; [reflexivity|]. cbn [try_values length repeat]. pose proof (value_size_pos t Ht).
  now rewrite (proj2 (N.ltb_lt _ _)), IH by lia.
Qed.
Lemma try_loads_eq ts len : Forall vtype_ok ts -> forall pos, pos <= len ->
  try_loads ts pos len = loads pos (N.to_nat (types_size (firstn (fit_count ts (len - pos)) ts))).
Proof.
  induction 1 as [|t r Ht Hr IH]; intros pos P; [reflexivity|]. cbn [try_loads fit_count].
  destruct (N.ltb_spec (len - pos) (value_size t)) as [L|L].
  - rewrite (proj2 (N.leb_gt _ _)) by lia. cbn [firstn]. now apply try_end.
  - rewrite (proj2 (N.leb_le _ _)) by lia. cbn [firstn]. rewrite types_size_cons, N2Nat.inj_add, loads_app, IH by lia.
    rewrite N2Nat.id. replace (len - (pos + value_size t)) with (len - pos - value_size t) by lia. reflexivity.
Qed.
Lemma try_values_eq ev ts len : Forall vtype_ok ts -> forall pos bs, pos <= len ->
  try_values ev ts pos len bs =
  map RVal (decode_all ev (firstn (fit_count ts (len - pos)) ts) bs)
    ++ repeat (RErr rd_insufficient_buffer) (length ts - fit_count ts (len - pos)).
Proof.
  induction 1 as [|t r Ht Hr IH]; intros pos bs P; [reflexivity|]. cbn [try_values fit_count].
  destruct (N.ltb_spec (len - pos) (value_size t)) as [L|L].
  - rewrite (proj2 (N.leb_gt _ _)) by lia. cbn [firstn decode_all map app length Nat.sub repeat]. now rewrite try_end_values.
  - rewrite (proj2 (N.leb_le _ _)) by lia. cbn [firstn decode_all map app length Nat.sub]. f_equal. rewrite IH by lia.
    replace (len - (pos + value_size t)) with (len - pos - value_size t) by lia. reflexivity.
Qed.

Lemma args_cons a r : args_size (a :: r) = arg_bytes a + args_size r.
Proof. reflexivity. Qed.
Lemma try_stores_eq ev args len : Forall arg_ok args -> args_size args < size_mod -> forall pos, pos <= len ->
  try_stores ev args pos len = stores pos (enc_args ev (fit_prefix args (len - pos))).
Proof.
  induction 1 as [|a r Ha Hr IH]; intros Hs pos P; [reflexivity|]. rewrite args_cons in Hs. cbn [try_stores fit_prefix].
  rewrite arg_size_small by lia. destruct (N.ltb_spec (len - pos) (arg_bytes a)) as [L|L].
  - now rewrite (proj2 (N.leb_gt _ _)) by lia.
  - rewrite (proj2 (N.leb_le _ _)) by lia. rewrite IH, arg_stores_eq by (assumption || lia).
    change (enc_args ev (a :: ?x)) with (enc_arg ev a ++ enc_args ev x).
    rewrite stores_app, lenN_enc_arg by assumption.
    replace (len - (pos + arg_bytes a)) with (len - pos - arg_bytes a) by lia. reflexivity.
Qed.
Lemma try_written_eq args len : args_size args < size_mod -> forall pos, pos <= len ->
  try_written args pos len = if len <? pos + args_size args then RErr wr_insufficient_buffer else RVal (args_size args).
Proof.
  induction args as [|a r IH]; intros Hs pos P.
  - cbn [try_written]. now rewrite (proj2 (N.ltb_ge _ _)) by (change (args_size []) with 0; lia).
  - rewrite args_cons in *. cbn [try_written]. rewrite arg_size_small by lia.
    destruct (N.ltb_spec (len - pos) (arg_bytes a)) as [L|L]; [now rewrite (proj2 (N.ltb_lt _ _)) by lia|].
    rewrite arg_written_eq by lia. destruct r as [|b r'].
    + change (args_size []) with 0. rewrite N.add_0_r. now rewrite (proj2 (N.ltb_ge _ _)) by lia.
    + rewrite IH by lia. rewrite <- N.add_assoc.
      destruct (len <? pos + (arg_bytes a + args_size (b :: r'))); [reflexivity|]. now rewrite sz_add_small by lia.
Qed.

Lemma get_char ev op len p : rop_ok op -> pl_get p <= len -> len < ptr_max ->
  exists n, fst (get_begin ev op len p) = loads (pl_get p) (N.to_nat n) /\ n <= rop_size op /\ pl_get p + n <= len /\
    forall buf, lenN buf = len -> exists q o,
      snd (get_begin ev op len p) (slice buf (pl_get p) n) = (Places q (pl_put p), VRo o) /\
      rv_step ev (RView buf (pl_get p)) op = (RView buf q, o) /\ q <= len.
Proof.
  destruct p as [g u]. cbn [pl_get pl_put].
  intros Hop P Hl. pose proof ptr_max_lt as Hm. assert (Hpm : ptr_max = 2 ^ 63) by reflexivity.
  assert (E0 : forall q o, get_begin ev op len (Places g u) = ([], fun _ => (Places q u, VRo o)) -> q <= len ->
    (forall buf, lenN buf = len -> rv_step ev (RView buf g) op = (RView buf q, o)) ->
    exists n, fst (get_begin ev op len (Places g u)) = loads g (N.to_nat n) /\ n <= rop_size op /\ g + n <= len /\
    forall buf, lenN buf = len -> exists q o,
      snd (get_begin ev op len (Places g u)) (slice buf g n) = (Places q u, VRo o) /\
      rv_step ev (RView buf g) op = (RView buf q, o) /\ q <= len).
  { intros q o E Q G. exists 0. rewrite E. cbn [fst snd]. split; [reflexivity|]. split; [lia|]. split; [lia|].
    intros buf Hb. exists q, o. auto. }
  assert (C : forall buf, lenN buf = len -> _) by (intros buf Hb; refine (rv_step_char ev (RView buf g) op _ _ Hop);
    [unfold rv_inv; cbn; lia|cbn [rv_data]; lia]).
  cbn [rv_data rv_pos] in C. cbn zeta in C. unfold rv_rest in C. cbn [rv_data rv_pos] in C.
  assert (D : forall ts, types_size ts < size_mod -> g + types_size ts <= len ->
    fst (types_loads ts g, tt) = loads g (N.to_nat (types_size ts))) by (intros; apply types_loads_eq).
  destruct op as [q|q|ts|t k|n sg e|ts|t k]; cbn [get_begin rop_ok rop_size pl_get pl_put] in *.
  - destruct (N.ltb_spec len q).
    + apply (E0 g (Throw out_of_range)); [reflexivity|lia|]. intros buf Hb. rewrite C, Hb by exact Hb. now rewrite (proj2 (N.ltb_lt _ _)).
    + apply (E0 q (Ok ROUnit)); [reflexivity|lia|]. intros buf Hb. rewrite C, Hb by exact Hb. now rewrite (proj2 (N.ltb_ge _ _)).
  - destruct (N.ltb_spec len q).
    + apply (E0 g (Ok (ROSeek (RErr rd_invalid_position_offset)))); [reflexivity|lia|]. intros buf Hb. rewrite C, Hb by exact Hb. now rewrite (proj2 (N.ltb_lt _ _)).
    + apply (E0 q (Ok (ROSeek (RVal true)))); [reflexivity|lia|]. intros buf Hb. rewrite C, Hb by exact Hb. now rewrite (proj2 (N.ltb_ge _ _)).
  - destruct Hop as (_ & Hts & Hsz). rewrite byte_count_ty_small in * by lia. destruct (N.ltb_spec (len - g) (types_size ts)).
    + apply (E0 g (Throw out_of_range)); [reflexivity|lia|]. intros buf Hb. rewrite C, Hb by exact Hb. now rewrite (proj2 (N.ltb_lt _ _)) by lia.
    + exists (types_size ts). cbn [fst snd]. split; [apply types_loads_eq|]. split; [lia|]. split; [lia|]. intros buf Hb.
      rewrite got_to_ok by (cbn [pl_get]; lia). cbn [pl_get pl_put]. eexists _, _. split; [reflexivity|]. split; [|lia].
      rewrite C, Hb by exact Hb. rewrite (proj2 (N.ltb_ge _ _)) by lia. now rewrite values_slice by lia.
  - destruct Hop as (Hs & Hsz). rewrite range_bytes_small in * by lia.
    destruct (N.ltb_spec (len - g) (N.of_nat k * value_size t)).
    + apply (E0 g (Throw out_of_range)); [reflexivity|lia|]. intros buf Hb. rewrite C, Hb by exact Hb. now rewrite (proj2 (N.ltb_lt _ _)) by lia.
    + exists (types_size (repeat t k)). rewrite types_size_repeat at 2 3. cbn [fst snd]. split; [apply types_loads_eq|]. split; [lia|]. split; [lia|]. intros buf Hb.
      rewrite got_to_ok by (cbn [pl_get]; lia). cbn [pl_get pl_put]. eexists _, _. split; [reflexivity|]. split; [|lia].
      rewrite C, Hb by exact Hb. rewrite (proj2 (N.ltb_ge _ _)) by lia. unfold decode_range.
      now rewrite values_slice by (rewrite types_size_repeat; lia).
  - destruct Hop as (Hn & Hsz). assert (Hts : types_size [TEnc e n sg] = N.of_nat n) by (unfold types_size, value_size; cbn; lia).
    rewrite byte_count_ty_small in * by lia. rewrite Hts in *. destruct (N.ltb_spec (len - g) (N.of_nat n)).
    + apply (E0 g (Throw out_of_range)); [reflexivity|lia|]. intros buf Hb. rewrite C, Hb by exact Hb. now rewrite (proj2 (N.ltb_lt _ _)) by lia.
    + exists (types_size [TEnc e n sg]). cbn [fst snd]. split; [apply types_loads_eq|]. split; [lia|]. split; [lia|]. intros buf Hb.
      change (value_size (TPlain (SInt n sg))) with (N.of_nat n).
      rewrite got_to_ok by (cbn [pl_get]; lia). cbn [pl_get pl_put]. eexists _, _. split; [reflexivity|]. split; [|lia].
      rewrite C, Hb by exact Hb. rewrite (proj2 (N.ltb_ge _ _)) by lia. now rewrite values_slice by lia.
  - destruct Hop as (_ & Hts & Hsz). rewrite byte_count_ty_small by lia.
    pose proof (fit_count_fits ts (len - g)) as Hf.
    assert (Hle : types_size (firstn (fit_count ts (len - g)) ts) <= types_size ts).
    { pose proof (f_equal types_size (firstn_skipn (fit_count ts (len - g)) ts)) as X. rewrite types_size_app in X. lia. }
    exists (types_size (firstn (fit_count ts (len - g)) ts)). cbn [fst snd].
    split; [now apply try_loads_eq|]. split; [lia|]. split; [lia|]. intros buf Hb.
    unfold got_to, advance_signed, to_ptrdiff. cbn [pl_get pl_put]. rewrite (proj2 (N.ltb_lt _ _)) by lia.
    rewrite (proj2 (Z.leb_le _ _)), (proj2 (Z.leb_le _ _)) by lia. cbn [andb]. eexists _, _. split; [reflexivity|].
    split; [|lia]. rewrite C, Hb by exact Hb. rewrite try_values_eq, decode_slice by (assumption || lia).
    f_equal. f_equal. lia.
  - destruct Hop as (Hs & Hsz). rewrite range_bytes_small in * by lia.
    destruct (N.ltb_spec (len - g) (N.of_nat k * value_size t)).
    + apply (E0 len (Ok (ROTryRange (RErr rd_insufficient_buffer)))); [reflexivity|lia|]. intros buf Hb. rewrite C, Hb by exact Hb. now rewrite (proj2 (N.ltb_lt _ _)) by lia.
    + exists (types_size (repeat t k)). rewrite types_size_repeat at 2 3. cbn [fst snd]. split; [apply types_loads_eq|]. split; [lia|]. split; [lia|]. intros buf Hb.
      rewrite got_to_ok by (cbn [pl_get]; lia). cbn [pl_get pl_put]. eexists _, _. split; [reflexivity|]. split; [|lia].
      rewrite C, Hb by exact Hb. rewrite (proj2 (N.ltb_ge _ _)) by lia. unfold decode_range.
      now rewrite values_slice by (rewrite types_size_repeat; lia).
Qed.

Lemma put_char ev op len p : wop_ok op -> pl_put p <= len -> len < ptr_max ->
  exists bs, fst (put_begin ev op len p) = stores (pl_put p) bs /\ lenN bs <= wop_size op /\ pl_put p + lenN bs <= len /\
    exists q o, snd (put_begin ev op len p) [] = (Places (pl_get p) q, VWo o) /\ q <= len /\
      forall buf, lenN buf = len -> wv_step ev (WView buf (pl_put p)) op = (WView (splice buf (pl_put p) bs) q, o).
Proof.
  destruct p as [g u]. cbn [pl_get pl_put].
  intros Hop P Hl. pose proof ptr_max_lt as Hm. assert (Hpm : ptr_max = 2 ^ 63) by reflexivity.
  assert (E0 : forall q o, put_begin ev op len (Places g u) = ([], fun _ => (Places g q, VWo o)) -> q <= len ->
    (forall buf, lenN buf = len -> wv_step ev (WView buf u) op = (WView buf q, o)) ->
    exists bs, fst (put_begin ev op len (Places g u)) = stores u bs /\ lenN bs <= wop_size op /\ u + lenN bs <= len /\
    exists q o, snd (put_begin ev op len (Places g u)) [] = (Places g q, VWo o) /\ q <= len /\
      forall buf, lenN buf = len -> wv_step ev (WView buf u) op = (WView (splice buf u bs) q, o)).
  { intros q o E Q G. exists []. rewrite E, lenN_nil. cbn [fst snd]. split; [reflexivity|]. split; [lia|]. split; [lia|].
    exists q, o. split; [reflexivity|]. split; [exact Q|]. intros buf Hb. rewrite splice_nil by lia. auto. }
  assert (W : forall args, wop_ok (WWrite args) ->
    let beg := if len - u <? byte_count args then ([], fun _ => (Places g u, VWo (Throw out_of_range)))
      else (args_stores ev args u, fun _ : list byte => put_to len (Places g u) (args_written args) (WOCount (args_written args))) in
    exists bs, fst beg = stores u bs /\ lenN bs <= args_size args /\ u + lenN bs <= len /\
    exists q o, snd beg [] = (Places g q, VWo o) /\ q <= len /\
      forall buf, lenN buf = len -> wv_step ev (WView buf u) (WWrite args) = (WView (splice buf u bs) q, o)).
  { intros args (Hne & Hok & Hsz). rewrite byte_count_small by lia. destruct (N.ltb_spec (len - u) (args_size args)); cbn [fst snd]; cbn zeta.
    - exists []. rewrite lenN_nil. split; [reflexivity|]. split; [lia|]. split; [lia|]. eexists _, _. split; [reflexivity|]. split; [lia|].
      intros buf Hb. cbn [wv_step wv_pos wv_data]. pose proof (wv_write_char ev (WView buf u) args) as X. cbn [wv_pos wv_data] in X.
      rewrite X by (assumption || (unfold wv_inv; cbn; lia) || lia).
      rewrite (proj2 (N.ltb_lt _ _)) by lia. rewrite splice_nil by lia. reflexivity.
    - exists (enc_args ev args). rewrite lenN_enc_args by assumption. split; [apply args_stores_eq; assumption || lia|].
      split; [lia|]. split; [lia|]. rewrite args_written_eq by lia. rewrite put_to_ok by (cbn [pl_put]; lia). cbn [pl_get pl_put].
      eexists _, _. split; [reflexivity|]. split; [lia|]. intros buf Hb. cbn [wv_step wv_pos wv_data].
      pose proof (wv_write_char ev (WView buf u) args) as X. cbn [wv_pos wv_data] in X.
      rewrite X by (assumption || (unfold wv_inv; cbn; lia) || lia). now rewrite (proj2 (N.ltb_ge _ _)) by lia. }
  destruct op as [q|q|args|n sg z e|args]; cbn [put_begin wop_size pl_get pl_put] in *.
  - cbn [wop_ok] in Hop. destruct (N.ltb_spec len q).
    + apply (E0 u (Throw out_of_range)); [reflexivity|lia|]. intros buf Hb. cbn [wv_step wv_data wv_pos]. rewrite Hb. now rewrite (proj2 (N.ltb_lt _ _)).
    + apply (E0 q (Ok WOUnit)); [reflexivity|lia|]. intros buf Hb. cbn [wv_step wv_data wv_pos]. rewrite Hb. now rewrite (proj2 (N.ltb_ge _ _)).
  - cbn [wop_ok] in Hop. destruct (N.ltb_spec len q).
    + apply (E0 u (Ok (WOSeek (RErr wr_invalid_position_offset)))); [reflexivity|lia|]. intros buf Hb. cbn [wv_step wv_data wv_pos]. rewrite Hb. now rewrite (proj2 (N.ltb_lt _ _)).
    + apply (E0 q (Ok (WOSeek (RVal true)))); [reflexivity|lia|]. intros buf Hb. cbn [wv_step wv_data wv_pos]. rewrite Hb. now rewrite (proj2 (N.ltb_ge _ _)).
  - exact (W args Hop).
  - pose proof (wop_endian_ok n sg z e Hop) as H. destruct (W _ H) as (bs & A & B & C & q & o & D & F & G).
    assert (Ea : write_endian_arg n sg z e = AVal (TEnc e n sg) (VInt z)) by (unfold write_endian_arg; now destruct e).
    rewrite Ea in A, B, D, G.
    assert (Hs : args_size [AVal (TEnc e n sg) (VInt z)] = N.of_nat n).
    { unfold args_size, sum. cbn [map arg_bytes fold_right]. unfold value_size. cbn [scalar_of scalar_bytes]. lia. }
    rewrite Hs in B. exists bs. split; [exact A|]. split; [exact B|]. split; [exact C|]. exists q, o. split; [exact D|]. split; [exact F|].
    intros buf Hb. rewrite wv_endian_arg_char, Ea. now apply G.
  - destruct Hop as (Hne & Hok & Hsz). set (pre := fit_prefix args (len - u)).
    pose proof (lenN_enc_args ev pre (fit_prefix_ok _ _ Hok)) as Hp. pose proof (fit_prefix_size args (len - u)) as Hf. fold pre in Hf.
    assert (Hle : args_size pre <= args_size args).
    { unfold pre. clear. generalize (len - u). induction args as [|a r IH]; intros room; cbn [fit_prefix]; [lia|].
      destruct (arg_bytes a <=? room); rewrite !args_cons; [specialize (IH (room - arg_bytes a)); lia|change (args_size []) with 0; lia]. }
    exists (enc_args ev pre). rewrite Hp. cbn [fst snd]. split; [apply try_stores_eq; assumption || lia|]. split; [lia|]. split; [lia|].
    rewrite try_written_eq by lia. destruct (N.ltb_spec len (u + args_size args)).
    + eexists _, _. split; [reflexivity|]. split; [lia|]. intros buf Hb.
      rewrite wv_trywrite_char by (assumption || (unfold wv_inv; cbn; lia) || (cbn [wv_data]; lia)). cbn [wv_data wv_pos]. cbn zeta.
      rewrite Hb. now rewrite (proj2 (N.ltb_lt _ _)) by lia.
    + rewrite put_to_ok by (cbn [pl_put]; lia). eexists _, _. split; [reflexivity|]. cbn [pl_put]. split; [lia|]. intros buf Hb.
      rewrite wv_trywrite_char by (assumption || (unfold wv_inv; cbn; lia) || (cbn [wv_data]; lia)). cbn [wv_data wv_pos]. cbn zeta.
      rewrite Hb. now rewrite (proj2 (N.ltb_ge _ _)) by lia.
Qed.

Definition so_places (s : solo) : places := Places (so_get s) (so_put s).
Definition solo_ok (L : N) (s : solo) : Prop := lenN (so_buf s) = L /\ so_get s <= L /\ so_put s <= L.

Lemma op_char ev op s L : vop_ok op -> solo_ok L s -> L < ptr_max ->
  (forall a, In a (fst (vop_begin ev op L (so_places s))) -> asks op s (access_at a) /\ is_store a = stores_bytes op) /\
  exists b got g u x, run_acts (so_buf s) (fst (vop_begin ev op L (so_places s))) [] = (b, got) /\
    snd (vop_begin ev op L (so_places s)) got = (Places g u, x) /\
    solo_call ev op s = Solo b g u (so_rets s ++ [x]) /\ solo_ok L (solo_call ev op s).
Proof.
  intros Hop (Hb & Hg & Hu) Hl. destruct s as [buf g0 u0 rets]. unfold so_places, asks. cbn [so_buf so_get so_put so_rets] in *.
  destruct op as [op|op]; cbn [vop_ok vop_begin stores_bytes solo_call so_buf so_get so_put so_rets] in *.
  - destruct (get_char ev op L (Places g0 u0) Hop Hg Hl) as (n & A & B & C & D). cbn [pl_get pl_put] in *. rewrite A. split.
    + intros a I. apply in_loads in I. rewrite N2Nat.id in I. split; [|tauto]. split; lia.
    + destruct (D buf Hb) as (q & o & E & F & G). exists buf, (slice buf g0 n), q, u0, (VRo o).
      rewrite run_loads by (rewrite N2Nat.id; lia). rewrite N2Nat.id. rewrite F. cbn [rv_data rv_pos app].
      split; [reflexivity|]. split; [exact E|]. split; [reflexivity|]. unfold solo_ok. cbn [so_buf so_get so_put]. auto.
  - destruct (put_char ev op L (Places g0 u0) Hop Hu Hl) as (bs & A & B & C & q & o & D & E & F). cbn [pl_get pl_put] in *. rewrite A. split.
    + intros a I. apply in_stores in I. split; [|tauto]. split; lia.
    + exists (splice buf u0 bs), [], g0, q, (VWo o). rewrite run_stores by lia. rewrite F by exact Hb. cbn [wv_data wv_pos].
      split; [reflexivity|]. split; [exact D|]. split; [reflexivity|]. unfold solo_ok. cbn [so_buf so_get so_put].
      rewrite lenN_splice by lia. auto.
Qed.

Section Inv.
Context (ev : env) (buf : list byte) (progs : N -> program) (own sees : N -> N -> Prop).
Let L := lenN buf.
Hypothesis SMALL : L < ptr_max.
Hypothesis KEEP : forall i, keeps_to ev buf (progs i) (own i) (sees i).
Hypothesis SHARE : shared_out own sees.
Notation sol i n := (solo_run ev (progs i) buf n).

Lemma sol_ok i n : solo_ok L (sol i n).
Proof.
  induction n as [|n IH]; [unfold solo_ok; cbn [solo_run so_buf so_get so_put]; split; [reflexivity|lia]|].
  cbn [solo_run]. destruct (progs i (so_rets (sol i n))) as [op|] eqn:E; [|exact IH].
  destruct (KEEP i n op E) as [Hop _]. destruct (op_char ev op _ L Hop IH SMALL) as (_ & b & got & g & u & x & _ & _ & _ & R). exact R.
Qed.

Definition acts_at (i : N) (n : nat) : list access :=
  match progs i (so_rets (sol i n)) with Some op => fst (vop_begin ev op L (so_places (sol i n))) | None => [] end.
Fixpoint spent (i : N) (n : nat) : nat := match n with O => O | S m => (spent i m + 2 + length (acts_at i m))%nat end.

Lemma acts_own i n a : In a (acts_at i n) ->
  access_at a < L /\ (if is_store a then own i (access_at a) else sees i (access_at a)).
Proof.
  unfold acts_at. destruct (progs i (so_rets (sol i n))) as [op|] eqn:E; [|intros []]. intros I.
  destruct (KEEP i n op E) as [Hop K]. pose proof (sol_ok i n) as Hs.
  destruct (op_char ev op _ L Hop Hs SMALL) as (A & _). destruct (A a I) as [B C]. rewrite C. split; [|now apply K].
  destruct B as [B _]. destruct Hs as [Hs _]. lia.
Qed.

Definition got_now (t : vthread) : list byte := match vt_now t with Some r => vr_got r | None => [] end.
Definition tinv (i : N) (c : nat) (now : list byte) (t : vthread) : Prop :=
  let n := length (vt_rets t) in
  so_rets (sol i n) = vt_rets t /\ vt_places t = so_places (sol i n) /\
  exists before bi, run_acts (so_buf (sol i n)) before [] = (bi, got_now t) /\ lenN bi = L /\
    (forall k, own i k \/ sees i k -> nth_error now (N.to_nat k) = nth_error bi (N.to_nat k)) /\
    match vt_now t with
    | None => before = [] /\ (c = spent i n \/ progs i (vt_rets t) = None)
    | Some r => exists op, progs i (vt_rets t) = Some op /\ acts_at i n = before ++ vr_acts r /\
                  vr_end r = snd (vop_begin ev op L (so_places (sol i n))) /\ c = (spent i n + 1 + length before)%nat
    end.
Definition inv (sched : list N) (st : vsystem) : Prop :=
  vs_ub st = false /\ lenN (vs_buf st) = L /\
  (forall k, (forall i b, ~ In (i, AStore k b) (vs_trace st)) -> nth_error (vs_buf st) (N.to_nat k) = nth_error buf (N.to_nat k)) /\
  (forall i a, In (i, a) (vs_trace st) -> access_at a < L /\ if is_store a then own i (access_at a) else sees i (access_at a)) /\
  forall i, tinv i (turns i sched) (vs_buf st) (vs_thread st i).

Lemma inv_start : inv [] (vs_start buf).
Proof.
  repeat split; try reflexivity; try contradiction. exists [], buf. repeat split; try reflexivity. now left.
Qed.

Lemma turns_snoc j i sched : turns j (sched ++ [i]) = (turns j sched + if N.eqb j i then 1 else 0)%nat.
Proof. rewrite turns_app. f_equal. unfold turns. cbn [filter]. now destruct (j =? i). Qed.

Lemma inv_step sched st i : inv sched st -> inv (sched ++ [i]) (vs_step ev progs st i).
Proof.
  intros (U & Len & Rest & Tr & T). unfold vs_step.
  assert (Same : forall j, j <> i -> tinv j (turns j (sched ++ [i])) (vs_buf st) (vs_thread st j)).
  { intros j D. rewrite turns_snoc, (proj2 (N.eqb_neq _ _) D), Nat.add_0_r. apply T. }
  destruct (T i) as (R & P & before & bi & A1 & A2 & A3 & A4). pose proof (turns_snoc i i sched) as Tn. rewrite N.eqb_refl in Tn.
  destruct (vs_thread st i) as [pl now rets] eqn:Et. unfold vt_step. unfold got_now in *. cbn [vt_now vt_places vt_rets] in *.
  pose proof (sol_ok i (length rets)) as So.
  destruct now as [[acts got fin]|]; cbn [vr_acts vr_got vr_end] in *.
  - destruct A4 as (op & Ep & Ea & Ef & Ec).
    assert (Ea' : acts_at i (length rets) = fst (vop_begin ev op L (so_places (sol i (length rets)))))
      by (unfold acts_at; now rewrite R, Ep).
    assert (Ep' : progs i (so_rets (sol i (length rets))) = Some op) by now rewrite R.
    destruct (KEEP i _ op Ep') as [Hop _].
    destruct acts as [|a more].
    + rewrite app_nil_r in Ea. destruct (op_char ev op _ L Hop So SMALL) as (_ & b & g & q & u & x & B1 & B2 & B3 & B4).
      rewrite <- Ea', Ea, A1 in B1. injection B1 as <- <-. rewrite Ef, B2.
      assert (En : sol i (S (length rets)) = Solo bi q u (rets ++ [x])) by (cbn [solo_run]; now rewrite Ep', B3, R).
      split; [now rewrite U|]. cbn [vs_buf vs_thread vs_trace]. split; [exact Len|]. split; [exact Rest|]. split; [exact Tr|].
      intros j. destruct (N.eqb_spec j i) as [->|D]; [|now apply Same].
      unfold tinv. cbn [vt_rets vt_places vt_now got_now]. rewrite app_length, Nat.add_1_r, En. cbn [so_rets so_buf so_get so_put].
      split; [reflexivity|]. split; [reflexivity|]. exists [], bi. split; [reflexivity|]. split; [exact A2|]. split; [exact A3|].
      split; [reflexivity|]. left. rewrite Tn, Ec. cbn [spent]. rewrite Ea. lia.
    + assert (Hin : In a (acts_at i (length rets))) by (rewrite Ea; apply in_elt).
      destruct (acts_own i _ a Hin) as [Ha Ho]. destruct a as [k|k b]; cbn [access_at is_store] in *.
      * destruct (nth_error (vs_buf st) (N.to_nat k)) as [b|] eqn:Eb;
          [|apply nth_error_None in Eb; unfold lenN in *; lia].
        split; [now rewrite U|]. cbn [vs_buf vs_thread vs_trace]. split; [exact Len|]. split.
        { intros m Hm. apply Rest. intros j x I. apply (Hm j x). now right. }
        split. { intros j x [E|I]; [injection E as <- <-; cbn [access_at is_store]; auto|now apply Tr]. }
        intros j. destruct (N.eqb_spec j i) as [->|D]; [|now apply Same].
        unfold tinv. cbn [vt_rets vt_places vt_now got_now vr_got vr_acts vr_end]. split; [exact R|]. split; [exact P|].
        exists (before ++ [ALoad k]), bi. split.
        { rewrite run_acts_app, A1. cbn [run_acts]. do 3 f_equal. apply nth_error_nth. rewrite <- A3 by (now right). exact Eb. }
        split; [exact A2|]. split; [exact A3|]. exists op. split; [exact Ep|]. split; [rewrite Ea, <- app_assoc; reflexivity|].
        split; [exact Ef|]. rewrite app_length. cbn [length]. lia.
      * assert (Hw : k < lenN (vs_buf st)) by lia. rewrite (proj2 (N.ltb_lt _ _) Hw).
        change (takeN k (vs_buf st) ++ b :: dropN (k + 1) (vs_buf st)) with (put1 (vs_buf st) k b).
        split; [now rewrite U|]. cbn [vs_buf vs_thread vs_trace]. split; [rewrite lenN_put1 by exact Hw; exact Len|]. split.
        { intros m Hm. rewrite nth_put1 by exact Hw. rewrite N2Nat.id. destruct (N.eqb_spec m k) as [->|].
          - exfalso. apply (Hm i b). now left.
          - apply Rest. intros j x I. apply (Hm j x). now right. }
        split. { intros j x [E|I]; [injection E as <- <-; cbn [access_at is_store]; auto|now apply Tr]. }
        intros j. destruct (N.eqb_spec j i) as [->|D].
        -- unfold tinv. cbn [vt_rets vt_places vt_now got_now vr_got vr_acts vr_end]. split; [exact R|]. split; [exact P|].
           exists (before ++ [AStore k b]), (put1 bi k b). split; [now rewrite run_acts_app, A1|].
           split; [rewrite lenN_put1; lia|]. split.
           { intros m M. rewrite !nth_put1 by lia. destruct (N.of_nat (N.to_nat m) =? k); [reflexivity|now apply A3]. }
           exists op. split; [exact Ep|]. split; [rewrite Ea, <- app_assoc; reflexivity|].
           split; [exact Ef|]. rewrite app_length. cbn [length]. lia.
        -- destruct (Same j D) as (R' & P' & bf & bj & B1 & B2 & B3 & B4). split; [exact R'|]. split; [exact P'|].
           exists bf, bj. split; [exact B1|]. split; [exact B2|]. split; [|exact B4].
           intros m M. rewrite nth_put1 by exact Hw. rewrite N2Nat.id. destruct (N.eqb_spec m k) as [->|]; [|now apply B3].
           exfalso. destruct (SHARE i j k (not_eq_sym D) Ho). tauto.
  - destruct A4 as [-> A4]. destruct (progs i rets) as [op|] eqn:Ep.
    + rewrite P, Len. destruct (vop_begin ev op L (so_places (sol i (length rets)))) as [acts fin] eqn:Eb.
      split; [now rewrite U|]. cbn [vs_buf vs_thread vs_trace]. split; [exact Len|]. split; [exact Rest|]. split; [exact Tr|].
      intros j. destruct (N.eqb_spec j i) as [->|D]; [|now apply Same].
      unfold tinv. cbn [vt_rets vt_places vt_now got_now vr_got vr_acts vr_end]. split; [exact R|]. split; [reflexivity|].
      exists [], bi. split; [exact A1|]. split; [exact A2|]. split; [exact A3|]. exists op. split; [exact Ep|].
      split; [unfold acts_at; now rewrite R, Ep, Eb|]. split; [now rewrite Eb|]. destruct A4 as [A4|A4]; [|discriminate]. cbn [length]. lia.
    + split; [now rewrite U|]. cbn [vs_buf vs_thread vs_trace]. split; [exact Len|]. split; [exact Rest|]. split; [exact Tr|].
      intros j. destruct (N.eqb_spec j i) as [->|D]; [|now apply Same].
      unfold tinv. cbn [vt_rets vt_places vt_now got_now]. split; [exact R|]. split; [exact P|]. exists [], bi.
      split; [exact A1|]. split; [exact A2|]. split; [exact A3|]. split; [reflexivity|]. now right.
Qed.

Lemma inv_run sched : inv sched (vs_run ev progs sched (vs_start buf)).
Proof.
  induction sched as [|i sched IH] using rev_ind; [exact inv_start|].
  unfold vs_run in *. rewrite fold_left_app. cbn [fold_left]. now apply inv_step.
Qed.

Lemma v_as_alone sched i : let st := vs_run ev progs sched (vs_start buf) in
  let s := sol i (length (vreturned st i)) in
  vreturned st i = so_rets s /\
  (between_calls st i -> forall k, own i k \/ sees i k ->
     nth_error (vs_buf st) (N.to_nat k) = nth_error (so_buf s) (N.to_nat k)).
Proof.
  intros st s. destruct (inv_run sched) as (_ & _ & _ & _ & T). destruct (T i) as (R & P & before & bi & A1 & A2 & A3 & A4).
  fold st in R, A1, A3, A4. unfold vreturned, between_calls in *. split; [symmetry; exact R|]. intros N k O. rewrite N in A4.
  destruct A4 as [-> _]. injection A1 as A0 _. unfold s. unfold vreturned. rewrite A0. now apply A3.
Qed.

Lemma v_safe sched : let st := vs_run ev progs sched (vs_start buf) in
  vs_ub st = false /\ lenN (vs_buf st) = L /\ ~ vrace st /\
  forall k, (forall i, ~ own i k) -> nth_error (vs_buf st) (N.to_nat k) = nth_error buf (N.to_nat k).
Proof.
  intros st. destruct (inv_run sched) as (U & Len & Rest & Tr & T). fold st in U, Len, Rest, Tr, T.
  split; [exact U|]. split; [exact Len|]. split.
  - intros (i & j & a & b & Ia & Ib & D & E & W). apply Tr in Ia, Ib. destruct Ia as [_ Ia], Ib as [_ Ib]. rewrite E in Ia.
    destruct W as [W|W]; rewrite W in *.
    + destruct (SHARE i j _ D Ia). destruct (is_store b); tauto.
    + destruct (SHARE j i _ (not_eq_sym D) Ib). destruct (is_store a); tauto.
  - intros k Hk. apply Rest. intros i b I. apply Tr in I. cbn [access_at is_store] in I. exact (Hk i (proj2 I)).
Qed.

Lemma spent_lt i n m : (n < m)%nat -> (spent i n < spent i m)%nat.
Proof. induction 1; cbn [spent]; lia. Qed.

Lemma v_progress i m : exists c, forall sched, (c <= turns i sched)%nat ->
  let st := vs_run ev progs sched (vs_start buf) in (m <= length (vreturned st i))%nat \/ vdone progs st i.
Proof.
  exists (spent i m). intros sched H st. destruct (inv_run sched) as (_ & _ & _ & _ & T).
  destruct (T i) as (R & P & before & bi & A1 & A2 & A3 & A4). fold st in A4. unfold vdone, between_calls, vreturned.
  destruct (vt_now (vs_thread st i)) as [r|].
  - left. destruct A4 as (op & Ep & Ea & _ & Ec). apply Nat.nlt_ge. intros Lt.
    assert (spent i (S (length (vt_rets (vs_thread st i)))) <= spent i m)%nat.
    { destruct (Nat.eq_dec (S (length (vt_rets (vs_thread st i)))) m) as [->|]; [lia|].
      apply Nat.lt_le_incl, spent_lt. lia. }
    cbn [spent] in H0. rewrite Ea, app_length in H0. lia.
  - destruct A4 as [_ [A4|A4]]; [left|now right]. apply Nat.nlt_ge. intros Lt. apply (spent_lt i) in Lt. lia.
Qed.

Lemma sol_stays i n m : progs i (so_rets (sol i n)) = None -> (n <= m)%nat -> sol i m = sol i n.
Proof. intros E. induction 1 as [|m Hm IH]; [reflexivity|]. cbn [solo_run]. now rewrite IH, E. Qed.

Lemma v_same s1 s2 : let st1 := vs_run ev progs s1 (vs_start buf) in
  let st2 := vs_run ev progs s2 (vs_start buf) in
  (forall i, vdone progs st1 i) -> (forall i, vdone progs st2 i) ->
  vs_buf st1 = vs_buf st2 /\ forall i, vreturned st1 i = vreturned st2 i.
Proof.
  intros st1 st2 D1 D2.
  assert (Q : forall i, sol i (length (vreturned st1 i)) = sol i (length (vreturned st2 i))).
  { intros i. destruct (D1 i) as [_ E1], (D2 i) as [_ E2].
    destruct (v_as_alone s1 i) as [R1 _], (v_as_alone s2 i) as [R2 _]. fold st1 in R1. fold st2 in R2. rewrite R1 in E1. rewrite R2 in E2.
    destruct (Nat.le_ge_cases (length (vreturned st1 i)) (length (vreturned st2 i))) as [H|H].
    - symmetry. now apply sol_stays.
    - now apply sol_stays. }
  split.
  - destruct (inv_run s1) as (_ & Len1 & Rest1 & Tr1 & _), (inv_run s2) as (_ & Len2 & Rest2 & Tr2 & _).
    fold st1 in Len1, Rest1, Tr1. fold st2 in Len2, Rest2, Tr2.
    assert (V : forall i k, own i k -> nth_error (vs_buf st1) (N.to_nat k) = nth_error (vs_buf st2) (N.to_nat k)).
    { intros i k O. destruct (v_as_alone s1 i) as [_ A1], (v_as_alone s2 i) as [_ A2]. fold st1 in A1. fold st2 in A2.
      rewrite A1, A2 by (try apply D1; try apply D2; now left). now rewrite Q. }
    assert (Dec : forall k (tr : list (N * access)), (exists i b, In (i, AStore k b) tr) \/ forall i b, ~ In (i, AStore k b) tr).
    { intros k tr. induction tr as [|[i a] tr [(j & b & I)|No]].
      - right. intros i b [].
      - left. exists j, b. now right.
      - destruct a as [m|m b].
        + right. intros j b [E|I]; [discriminate|now apply (No j b)].
        + destruct (N.eq_dec m k) as [->|Ne]; [left; exists i, b; now left|].
          right. intros j c [E|I]; [congruence|now apply (No j c)]. }
    apply nth_error_ext. intros n. rewrite <- (Nat2N.id n). set (k := N.of_nat n).
    destruct (Dec k (vs_trace st1)) as [(i & b & I)|N1]; [apply Tr1 in I; exact (V i k (proj2 I))|].
    destruct (Dec k (vs_trace st2)) as [(i & b & I)|N2]; [apply Tr2 in I; exact (V i k (proj2 I))|].
    now rewrite Rest1, Rest2.
  - intros i. destruct (v_as_alone s1 i) as [R1 _], (v_as_alone s2 i) as [R2 _]. fold st1 in R1. fold st2 in R2.
    rewrite R1, R2. now rewrite Q.
Qed.
End Inv.

(** ** Filling a buffer in parallel *)

Lemma fill_solo ev buf j n : lenN buf < ptr_max -> job_ok (lenN buf) j ->
  solo_run ev (fill j) buf n =
  match j with
  | None => Solo buf 0 0 []
  | Some (at_, args) =>
      match n with
      | O => Solo buf 0 0 []
      | S O => Solo buf 0 at_ [VWo (Ok WOUnit)]
      | _ => Solo (splice buf at_ (enc_args ev args)) 0 (at_ + args_size args)
               [VWo (Ok WOUnit); VWo (Ok (WOCount (args_size args)))]
      end
  end.
Proof.
  intros Hb Hj. assert (Hpm : ptr_max = 2 ^ 63) by reflexivity. destruct j as [[p args]|].
  - destruct Hj as (Hne & Hok & Hs). assert (N.ltb (lenN buf) p = false) as Hp by (apply N.ltb_ge; lia).
    assert (S1 : solo_run ev (fill (Some (p, args))) buf 1 = Solo buf 0 p [VWo (Ok WOUnit)]).
    { cbn [solo_run so_rets fill solo_call so_buf so_put so_get wv_step wv_data wv_pos]. rewrite Hp. reflexivity. }
    assert (S2 : solo_run ev (fill (Some (p, args))) buf 2 =
      Solo (splice buf p (enc_args ev args)) 0 (p + args_size args) [VWo (Ok WOUnit); VWo (Ok (WOCount (args_size args)))]).
    { change (solo_run ev (fill (Some (p, args))) buf 2) with
        (let s := solo_run ev (fill (Some (p, args))) buf 1 in
         match fill (Some (p, args)) (so_rets s) with Some op => solo_call ev op s | None => s end).
      rewrite S1. cbn [so_rets fill solo_call so_buf so_put so_get wv_step wv_data wv_pos]. cbn zeta.
      pose proof (wv_write_char ev (WView buf p) args) as W. cbn [wv_data wv_pos] in W.
      rewrite W by (assumption || (unfold wv_inv; cbn [wv_pos wv_data]; lia) || lia).
      rewrite (proj2 (N.ltb_ge _ _)) by lia. reflexivity. }
    destruct n as [|[|n]]; [reflexivity|exact S1|].
    induction n as [|n IH]; [exact S2|]. remember (S (S n)) as m. cbn [solo_run]. subst m. rewrite IH. reflexivity.
  - induction n as [|n IH]; [reflexivity|]. cbn [solo_run]. rewrite IH. reflexivity.
Qed.

Lemma parallel_fill ev buf jobs sched : lenN buf < ptr_max -> (forall i, job_ok (lenN buf) (jobs i)) ->
  (forall i j k, i <> j -> job_bytes (jobs i) k -> ~ job_bytes (jobs j) k) ->
  let st := vs_run ev (fun i => fill (jobs i)) sched (vs_start buf) in
  vs_ub st = false /\ ~ vrace st /\ lenN (vs_buf st) = lenN buf /\
  (forall i at_ args bs, jobs i = Some (at_, args) -> vdone (fun i => fill (jobs i)) st i -> args_encoding ev args bs ->
     vreturned st i = [VWo (Ok WOUnit); VWo (Ok (WOCount (args_size args)))] /\ slice (vs_buf st) at_ (lenN bs) = bs) /\
  (forall k, (forall i, ~ job_bytes (jobs i) k) -> nth_error (vs_buf st) (N.to_nat k) = nth_error buf (N.to_nat k)).
Proof.
  intros Hb Hj Hd st. set (own := fun i k => job_bytes (jobs i) k). set (sees := fun _ _ : N => False).
  assert (KEEP : forall i, keeps_to ev buf (fill (jobs i)) (own i) (sees i)).
  { intros i n op E. pose proof (fill_solo ev buf (jobs i) n Hb (Hj i)) as Fs. rewrite Fs in *. unfold own. specialize (Hj i).
    destruct (jobs i) as [[p args]|]; [|discriminate E]. destruct Hj as (Hne & Hok & Hs). pose proof ptr_max_lt.
    destruct n as [|[|n]]; cbn [so_rets fill] in E; try discriminate E; injection E as <-; cbn [vop_ok wop_ok stores_bytes].
    - split; [lia|]. intros k [_ K]. cbn [wop_size] in K. lia.
    - split; [split; [exact Hne|]; split; [exact Hok|lia]|]. intros k [_ K]. exact K. }
  assert (SHARE : shared_out own sees) by (intros i j k D O; split; [exact (Hd i j k D O)|intros []]).
  destruct (v_safe ev buf (fun i => fill (jobs i)) own sees Hb KEEP SHARE sched) as (A & B & C & D). fold st in A, B, C, D.
  split; [exact A|]. split; [exact C|]. split; [exact B|]. split; [|exact D].
  intros i p args bs Ej Dn He. destruct (v_as_alone ev buf (fun i => fill (jobs i)) own sees Hb KEEP SHARE sched i) as [R V].
  fold st in R, V. cbn beta in R, V.
  pose proof (Hj i) as Ji. rewrite Ej in Ji. destruct Ji as (Hne & Hok & Hs). apply args_encoding_eq in He; [|exact Hok].
  destruct Dn as [Nc Pn]. specialize (V Nc). pose proof (fill_solo ev buf (jobs i) (length (vreturned st i)) Hb (Hj i)) as Fs. cbn beta in Pn.
  rewrite Ej in *. rewrite Fs in *.
  destruct (length (vreturned st i)) as [|[|n]]; cbn [so_rets so_buf] in *;
    [rewrite R in Pn; discriminate Pn|rewrite R in Pn; discriminate Pn|]. split; [exact R|].
  rewrite He, lenN_enc_args by exact Hok. unfold own in V. rewrite Ej in V. cbn [job_bytes] in V.
  pose proof (lenN_enc_args ev args Hok) as Le.
  transitivity (slice (splice buf p (enc_args ev args)) p (args_size args)).
  - apply nth_error_ext. intros m. unfold slice. rewrite !nth_error_takeN, !nth_error_dropN.
    destruct (N.ltb_spec (N.of_nat m) (args_size args)); [|reflexivity].
    replace (N.to_nat p + m)%nat with (N.to_nat (p + N.of_nat m)) by lia. apply V. left. lia.
  - unfold slice, splice. rewrite dropN_app, lenN_takeN, N.min_l by lia. rewrite (dropN_all p) by (rewrite lenN_takeN; lia).
    rewrite N.sub_diag. unfold dropN at 1. cbn [N.to_nat skipn app]. rewrite <- Le. now apply takeN_app_exact.
Qed.

