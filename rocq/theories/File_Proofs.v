From Verif Require Import Base BaseFacts Io_Model Io_Spec Io_Proofs IoRead_Proofs File_Model File_Spec.

Lemma prefix_takeN {A} n (l : list A) : prefix_of (takeN n l) l.
Proof. exists (dropN n l). now rewrite takeN_dropN. Qed.

Lemma last_cons {A} (x : A) l d : last (x :: l) d = last l x.
Proof. revert x. induction l as [|y l IH]; intros x; [reflexivity|]. cbn [last] in *. destruct l; [reflexivity|]. apply IH. Qed.

Lemma last_map {A B} (f : A -> B) l d : last (map f l) (f d) = f (last l d).
Proof. induction l as [|x l IH]; [reflexivity|]. cbn [map]. rewrite !last_cons. revert x. clear IH.
  induction l as [|y l IH]; intros x; [reflexivity|]. cbn [map]. rewrite !last_cons. apply IH. Qed.

Lemma last_growing pieces data : forall done,
  last (growing done pieces data) (takeN done data) = takeN (done + fold_right N.add 0 pieces) data.
Proof.
  induction pieces as [|k r IH]; intros done; [cbn; now rewrite N.add_0_r|].
  cbn [growing fold_right]. rewrite last_cons, IH. f_equal. lia.
Qed.

Lemma growing_prefixes pieces data : forall done, Forall (fun c => prefix_of c data) (growing done pieces data).
Proof.
  induction pieces as [|k r IH]; intros done; cbn [growing]; constructor; [apply prefix_takeN|apply IH].
Qed.

Lemma over_emptied f p c : over (fs_set f p []) p c = c.
Proof.
  unfold over, fs_set. rewrite N.eqb_refl. unfold dropN. now rewrite skipn_nil, app_nil_r.
Qed.
Lemma trace_map w f p data :
  map (fun c => fs_set f p (over (fs_set f p []) p c)) (growing 0 (wr_pieces w) data) =
  map (fs_set f p) (growing 0 (wr_pieces w) data).
Proof. apply map_ext. intros c. now rewrite over_emptied. Qed.

Lemma final_trace w f p count r tr : write_file_trace w f p count r = (tr, Ok true) ->
  final f tr = fs_set f p (takeN (fold_right N.add 0 (wr_pieces w)) (takeN count (rg_mem r))) /\
  count <= lenN (rg_mem r).
Proof.
  unfold write_file_trace, open_write, source_bytes. destruct (can_write w p); [|discriminate].
  destruct (N.leb_spec count (lenN (rg_mem r))); [|discriminate]. rewrite trace_map. intros E. injection E as <-.
  split; [|assumption]. unfold final. rewrite last_cons.
  set (d := takeN count (rg_mem r)). rewrite <- (takeN_0 d). rewrite last_map, last_growing. f_equal.
Qed.

Lemma trace_can w f p count r : can_write w p = true -> count <= lenN (rg_mem r) ->
  snd (write_file_trace w f p count r) = Ok true.
Proof.
  intros H L. unfold write_file_trace, open_write, source_bytes. rewrite H.
  now rewrite (proj2 (N.leb_le _ _)) by lia.
Qed.

Lemma write_file_n_char w f p count r : count <= lenN (rg_mem r) ->
  write_file_n w f p count r =
    if can_write w p then (fs_set f p (takeN (fold_right N.add 0 (wr_pieces w)) (takeN count (rg_mem r))), Ok tt)
    else (f, Throw invalid_argument).
Proof.
  intros L. destruct (can_write w p) eqn:Hc.
  - pose proof (trace_can w f p count r Hc L) as H. unfold write_file_n.
    destruct (write_file_trace w f p count r) as [tr o] eqn:E. cbn [snd] in H. subst o.
    apply final_trace in E. destruct E as [-> _]. reflexivity.
  - unfold write_file_n, write_file_trace, open_write. rewrite Hc. reflexivity.
Qed.

Lemma try_write_file_n_char w f p count r : count <= lenN (rg_mem r) ->
  try_write_file_n w f p count r =
    if can_write w p then (fs_set f p (takeN (fold_right N.add 0 (wr_pieces w)) (takeN count (rg_mem r))), Ok true)
    else (f, Ok false).
Proof.
  intros L. destruct (can_write w p) eqn:Hc.
  - pose proof (trace_can w f p count r Hc L) as H. unfold try_write_file_n.
    destruct (write_file_trace w f p count r) as [tr o] eqn:E. cbn [snd] in H. subst o.
    apply final_trace in E. destruct E as [-> _]. reflexivity.
  - unfold try_write_file_n, write_file_trace, open_write. rewrite Hc. reflexivity.
Qed.

Lemma try_write_file_char w f p r : rg_count r <= lenN (rg_mem r) ->
  try_write_file w f p r = try_write_file_n w f p (rg_count r) r.
Proof.
  intros L. unfold try_write_file, try_write_file_n, write_file_trace, open_write, source_bytes.
  destruct (can_write w p); [|reflexivity]. now rewrite (proj2 (N.leb_le _ _)) by lia.
Qed.

Lemma byte_range_count r : byte_range_of r -> rg_count r = lenN (rg_mem r).
Proof. intros [A B]. unfold range_ok in B. rewrite A in B. lia. Qed.

Lemma file_write_exact w f p r : byte_range_of r -> full_writes w (lenN (rg_mem r)) ->
  write_file w f p r = (if can_write w p then (fs_set f p (rg_mem r), Ok tt) else (f, Throw invalid_argument)) /\
  try_write_file w f p r = (if can_write w p then (fs_set f p (rg_mem r), Ok true) else (f, Ok false)).
Proof.
  intros Hr Hw. pose proof (byte_range_count r Hr) as Hc. unfold full_writes in Hw.
  rewrite try_write_file_char by lia. unfold write_file.
  rewrite write_file_n_char, try_write_file_n_char by lia. rewrite Hw, Hc.
  rewrite !(takeN_all (lenN (rg_mem r)) (rg_mem r)) by lia. auto.
Qed.

Lemma file_write_n_exact w f p n r : n <= lenN (rg_mem r) -> full_writes w n ->
  write_file_n w f p n r = (if can_write w p then (fs_set f p (takeN n (rg_mem r)), Ok tt) else (f, Throw invalid_argument)) /\
  try_write_file_n w f p n r = (if can_write w p then (fs_set f p (takeN n (rg_mem r)), Ok true) else (f, Ok false)).
Proof.
  intros Hr Hw. unfold full_writes in Hw.
  rewrite write_file_n_char, try_write_file_n_char by lia. rewrite Hw.
  rewrite !takeN_takeN. rewrite N.min_id. auto.
Qed.

Lemma file_write_range_exact w f p r : rg_count r <= lenN (rg_mem r) -> full_writes w (rg_count r) ->
  write_file w f p r =
    (if can_write w p then (fs_set f p (takeN (rg_count r) (rg_mem r)), Ok tt) else (f, Throw invalid_argument)) /\
  try_write_file w f p r =
    (if can_write w p then (fs_set f p (takeN (rg_count r) (rg_mem r)), Ok true) else (f, Ok false)).
Proof.
  intros L W. rewrite try_write_file_char by exact L. unfold write_file. now apply file_write_n_exact.
Qed.

Lemma file_history f ops p : Forall fop_fine ops -> fold_left fstep ops f p = latest f p ops.
Proof.
  intros H. revert f. induction H as [|o ops Ho _ IH]; intros f; [reflexivity|]. cbn [fold_left]. rewrite IH.
  destruct o as [w q r|w q r]; cbn [fstep latest]; destruct Ho as (A & B & C);
    destruct (file_write_exact w f q r B C) as [E1 E2]; rewrite ?E1, ?E2, A; reflexivity.
Qed.

Lemma unsafe_read_full w c n out : full_reads w -> n <= lenN c -> lenN out = n ->
  unsafe_read w c n out = takeN n c.
Proof.
  intros Hw Hn Ho. unfold unsafe_read. specialize (Hw n). rewrite N.min_r by exact Hw.
  rewrite dropN_all; [apply app_nil_r|]. rewrite lenN_takeN. lia.
Qed.

Lemma file_read_exact w f p count : full_reads w ->
  read_file w f p count =
    match (if can_read w p then f p else None) with
    | None => Throw invalid_argument
    | Some c => Ok (match count with None => c | Some n => takeN n c end)
    end.
Proof.
  intros Hw. unfold read_file, open_read. destruct (if can_read w p then f p else None) as [c|]; [|reflexivity].
  f_equal. unfold file_size. rewrite unsafe_read_full; [|exact Hw|destruct count; lia|apply lenN_zero_bytes].
  destruct count as [k|]; [|apply takeN_all; lia].
  destruct (N.leb_spec k (lenN c)); [now rewrite N.min_l by lia|]. rewrite N.min_r by lia. now rewrite !takeN_all by lia.
Qed.

Lemma file_try_read_exact w f p out : full_reads w ->
  try_read_file w f p out =
    match (if can_read w p then f p else None) with
    | None => (out, RErr rd_file_not_found)
    | Some c => (takeN (lenN out) c, RVal (N.min (lenN out) (lenN c)))
    end.
Proof.
  intros Hw. unfold try_read_file, open_read. destruct (if can_read w p then f p else None) as [c|]; [|reflexivity].
  unfold file_size. set (out1 := if lenN c <? lenN out then takeN (lenN c) out else out).
  assert (L : lenN out1 = N.min (lenN out) (lenN c)).
  { subst out1. destruct (N.ltb_spec (lenN c) (lenN out)); rewrite ?lenN_takeN; lia. }
  rewrite unsafe_read_full by (try exact Hw; lia). rewrite lenN_takeN, L.
  replace (takeN (N.min (lenN out) (lenN c)) c) with (takeN (lenN out) c).
  { f_equal. f_equal. lia. }
  destruct (N.leb_spec (lenN out) (lenN c)); [now rewrite N.min_l by lia|]. rewrite N.min_r by lia. now rewrite !takeN_all by lia.
Qed.

Lemma file_write_then_read w w2 f p r f' : byte_range_of r -> full_writes w (lenN (rg_mem r)) -> full_reads w2 ->
  can_read w2 p = true ->
  (write_file w f p r = (f', Ok tt) \/ try_write_file w f p r = (f', Ok true)) ->
  read_file w2 f' p None = Ok (rg_mem r) /\
  (forall n, read_file w2 f' p (Some n) = Ok (takeN n (rg_mem r))) /\
  (forall q, q <> p -> f' q = f q).
Proof.
  intros Hr Hw Hf Hc E. destruct (file_write_exact w f p r Hr Hw) as [E1 E2].
  assert (f' = fs_set f p (rg_mem r)).
  { destruct E as [E|E]; [rewrite E1 in E|rewrite E2 in E]; destruct (can_write w p); congruence. }
  subst f'. rewrite file_read_exact by exact Hf. rewrite Hc. unfold fs_set at 1. rewrite N.eqb_refl.
  split; [reflexivity|]. split.
  - intros n. rewrite file_read_exact by exact Hf. rewrite Hc. unfold fs_set at 1. now rewrite N.eqb_refl.
  - intros q Hq. unfold fs_set. now rewrite (proj2 (N.eqb_neq _ _) Hq).
Qed.

Definition short_os : os := OS (fun _ => true) (fun _ => true) (fun n => n) [1].
Lemma incomplete_write_refuted : exists w f p r f',
  byte_range_of r /\ try_write_file w f p r = (f', Ok true) /\ write_file w f p r = (f', Ok tt) /\ f' p <> Some (rg_mem r).
Proof.
  exists short_os, (fun _ => None), 0, (Range 1 2 [x01; x02]). eexists.
  split; [split; reflexivity|]. split; [reflexivity|]. split; [reflexivity|]. vm_compute. discriminate.
Qed.

Lemma write_leaves_prefix w f p n r f' : n <= lenN (rg_mem r) ->
  (write_file_n w f p n r = (f', Ok tt) \/ try_write_file_n w f p n r = (f', Ok true)) ->
  (exists c, f' p = Some c /\ prefix_of c (takeN n (rg_mem r))) /\ (forall q, q <> p -> f' q = f q).
Proof.
  intros Hn E. rewrite write_file_n_char, try_write_file_n_char in E by exact Hn.
  destruct (can_write w p); [|destruct E; discriminate].
  assert (f' = fs_set f p (takeN (fold_right N.add 0 (wr_pieces w)) (takeN n (rg_mem r)))) by (destruct E; congruence).
  subst f'. split.
  - eexists. split; [unfold fs_set; now rewrite N.eqb_refl|apply prefix_takeN].
  - intros q Hq. unfold fs_set. now rewrite (proj2 (N.eqb_neq _ _) Hq).
Qed.

Lemma crash_refuted : exists w f p r c,
  byte_range_of r /\ full_writes w (lenN (rg_mem r)) /\
  In c (fst (write_file_trace w f p (rg_count r) r)) /\ c p <> f p /\ c p <> Some (rg_mem r).
Proof.
  exists (OS (fun _ => true) (fun _ => true) (fun n => n) [2]), (fun _ => Some [x07]), 0, (Range 1 2 [x01; x02]).
  eexists. split; [split; reflexivity|]. split; [reflexivity|].
  split; [left; reflexivity|]. split; vm_compute; discriminate.
Qed.

Lemma crash_states w f p n r c : In c (fst (write_file_trace w f p n r)) ->
  (exists x, c p = Some x /\ prefix_of x (takeN n (rg_mem r))) /\ (forall q, q <> p -> c q = f q).
Proof.
  unfold write_file_trace, open_write. destruct (can_write w p); [|intros []].
  assert (S : forall x, prefix_of x (takeN n (rg_mem r)) ->
    (exists y, fs_set f p x p = Some y /\ prefix_of y (takeN n (rg_mem r))) /\ (forall q, q <> p -> fs_set f p x q = f q)).
  { intros x Hx. split; [exists x; split; [unfold fs_set; now rewrite N.eqb_refl|exact Hx]|].
    intros q Hq. unfold fs_set. now rewrite (proj2 (N.eqb_neq _ _) Hq). }
  assert (N0 : prefix_of [] (takeN n (rg_mem r))) by (eexists; reflexivity).
  unfold source_bytes. destruct (n <=? lenN (rg_mem r)); rewrite ?trace_map; cbn [fst In].
  - intros [<-|H]; [now apply S|]. apply in_map_iff in H. destruct H as (x & <- & Hx). apply S.
    pose proof (growing_prefixes (wr_pieces w) (takeN n (rg_mem r)) 0) as G. rewrite Forall_forall in G. now apply G.
  - intros [<-|[]]. now apply S.
Qed.

Lemma source_overrun_refuted : exists w f p n r,
  byte_range_of r /\ snd (write_file_n w f p n r) = UB /\ snd (try_write_file_n w f p n r) = UB.
Proof.
  exists short_os, (fun _ => None), 0, 3, (Range 1 2 [x01; x02]). split; [split; reflexivity|]. split; reflexivity.
Qed.

Lemma wide_elements_refuted : exists w f p r f' c,
  range_ok r /\ full_writes w (rg_count r) /\ write_file w f p r = (f', Ok tt) /\ f' p = Some c /\ lenN c < lenN (rg_mem r).
Proof.
  exists (OS (fun _ => true) (fun _ => true) (fun n => n) [2]), (fun _ => None), 0, (Range 2 2 [x01; x02; x03; x04]).
  eexists _, _. split; [reflexivity|]. split; [reflexivity|]. split; [reflexivity|]. split; reflexivity.
Qed.

Lemma no_source_overrun w f p n r :
  snd (write_file_n w f p n r) <> UB /\ snd (try_write_file_n w f p n r) <> UB <->
  n <= lenN (rg_mem r) \/ can_write w p = false.
Proof.
  split.
  - intros [A B]. destruct (N.leb_spec n (lenN (rg_mem r))); [now left|right].
    unfold write_file_n, write_file_trace, open_write, source_bytes in A. destruct (can_write w p); [|reflexivity].
    rewrite (proj2 (N.leb_gt _ _)) in A by lia. cbn in A. congruence.
  - intros [H|H].
    + rewrite write_file_n_char, try_write_file_n_char by exact H. destruct (can_write w p); split; discriminate.
    + unfold write_file_n, try_write_file_n, write_file_trace, open_write. rewrite H. split; discriminate.
Qed.

(** ** Streams *)

Lemma stream_writes_app ev svs : forall out,
  stream_writes ev svs out = out ++ concat (map (fun p => to_mem (machine ev) (fst p) (snd p)) svs).
Proof.
  induction svs as [|[s v] r IH]; intros out; cbn [stream_writes map concat fst snd]; [now rewrite app_nil_r|].
  rewrite IH. unfold stream_write. now rewrite <- app_assoc.
Qed.

Lemma lenN_to_mem m s v : value_ok s v -> lenN (to_mem m s v) = N.of_nat (scalar_bytes s).
Proof. intros H. unfold lenN. now rewrite length_to_mem. Qed.

Lemma stream_roundtrip ev svs tail : Forall (fun p => value_ok (fst p) (snd p)) svs ->
  stream_reads ev (map fst svs) (IStream (stream_writes ev svs [] ++ tail) true) =
    (IStream tail true, map snd svs).
Proof.
  rewrite stream_writes_app. cbn [app]. induction 1 as [|[s v] r Hv _ IH]; [reflexivity|].
  cbn [map concat fst snd] in *. rewrite <- app_assoc. cbn [stream_reads]. unfold stream_read. cbn [is_good is_rest].
  pose proof (lenN_to_mem (machine ev) s v Hv) as L. rewrite lenN_app.
  rewrite (proj2 (N.leb_le _ _)) by lia. rewrite takeN_app_exact, dropN_app_exact by (symmetry; exact L).
  rewrite IH. rewrite dropN_all by (rewrite lenN_zero_bytes; lia). rewrite app_nil_r. now rewrite of_to_mem.
Qed.


Lemma short_stream_read ev s bs : lenN bs < N.of_nat (scalar_bytes s) ->
  stream_read ev s (IStream bs true) =
    (IStream [] false, of_mem (machine ev) s (bs ++ repeat x00 (scalar_bytes s - length bs))).
Proof.
  intros H. unfold stream_read. cbn [is_good is_rest]. rewrite (proj2 (N.leb_gt _ _)) by exact H.
  rewrite dropN_all by lia. rewrite takeN_all by lia. f_equal. f_equal. f_equal.
  unfold zero_bytes. unfold dropN, lenN in *. rewrite !Nat2N.id.
  assert (G : forall k n, skipn k (repeat x00 n) = repeat x00 (n - k)).
  { induction k as [|k IH]; intros [|n]; cbn; auto. }
  apply G.
Qed.

Lemma enough_stream_read ev s bs : N.of_nat (scalar_bytes s) <= lenN bs ->
  stream_read ev s (IStream bs true) =
    (IStream (dropN (N.of_nat (scalar_bytes s)) bs) true, of_mem (machine ev) s (takeN (N.of_nat (scalar_bytes s)) bs)).
Proof.
  intros H. unfold stream_read. cbn [is_good is_rest]. rewrite (proj2 (N.leb_le _ _)) by exact H.
  rewrite dropN_all with (l := zero_bytes _); [now rewrite app_nil_r|]. rewrite lenN_zero_bytes, lenN_takeN. lia.
Qed.

Lemma failed_stream_read ev ss bs :
  stream_reads ev ss (IStream bs false) =
    (IStream bs false, map (fun s => of_mem (machine ev) s (repeat x00 (scalar_bytes s))) ss).
Proof.
  induction ss as [|s r IH]; [reflexivity|]. cbn [stream_reads map]. unfold stream_read. cbn [is_good].
  rewrite IH. unfold zero_bytes. now rewrite Nat2N.id.
Qed.

Lemma of_mem_stands ev s bs : (0 < scalar_bytes s)%nat -> length bs = scalar_bytes s ->
  stands_for ev s (of_mem (machine ev) s bs) bs.
Proof.
  intros P L. pose proof (of_mem_ok (machine ev) s bs P L) as O. split; [exact O|].
  pose proof (value_encoding_bytes ev (TPlain s) _ O) as V. unfold bytes_of_value in V.
  now rewrite to_of_mem in V.
Qed.

Lemma short_stream ev s bs : lenN bs < N.of_nat (scalar_bytes s) ->
  exists v, stream_read ev s (IStream bs true) = (IStream [] false, v) /\
    stands_for ev s v (bs ++ repeat x00 (scalar_bytes s - length bs)).
Proof.
  intros H. eexists. split; [now apply short_stream_read|]. unfold lenN in H.
  apply of_mem_stands; [lia|]. rewrite app_length, repeat_length. lia.
Qed.
Lemma enough_stream ev s bs : (0 < scalar_bytes s)%nat -> N.of_nat (scalar_bytes s) <= lenN bs ->
  exists v a b, stream_read ev s (IStream bs true) = (IStream b true, v) /\ bs = a ++ b /\ stands_for ev s v a.
Proof.
  intros P H. do 3 eexists. split; [now apply enough_stream_read|]. split; [symmetry; apply takeN_dropN|].
  apply of_mem_stands; [exact P|]. unfold takeN, lenN in *. rewrite firstn_length. lia.
Qed.
Lemma failed_stream ev ss bs : Forall (fun s => 0 < scalar_bytes s)%nat ss ->
  exists vs, stream_reads ev ss (IStream bs false) = (IStream bs false, vs) /\
    Forall2 (fun s v => stands_for ev s v (repeat x00 (scalar_bytes s))) ss vs.
Proof.
  intros H. eexists. split; [apply failed_stream_read|]. induction H; constructor; [|assumption].
  apply of_mem_stands; [assumption|apply repeat_length].
Qed.

(** ** to_integer *)

Lemma to_integer_pattern w k z :
  match k with
  | KStdByte => (0 <= z < 256)%Z /\ 8 <= w
  | KUnsigned vw => (0 <= z < 2 ^ Z.of_N vw)%Z /\ vw <= w
  | KSigned vw => 0 < vw /\ (- 2 ^ (Z.of_N vw - 1) <= z < 2 ^ (Z.of_N vw - 1))%Z /\ vw <= w
  end ->
  to_integer w k z = bit_pattern (match k with KStdByte => 8 | KUnsigned vw | KSigned vw => vw end) z.
Proof.
  assert (P : forall a b, a <= b -> (2 ^ Z.of_N a <= 2 ^ Z.of_N b)%Z) by (intros; apply Z.pow_le_mono_r; lia).
  unfold to_integer, to_unsigned, bit_pattern. destruct k as [|vw|vw].
  - intros [H Hw]. specialize (P 8 w Hw). change (2 ^ Z.of_N 8)%Z with 256%Z in *. rewrite !Z.mod_small; lia.
  - intros [H Hw]. specialize (P vw w Hw). rewrite !Z.mod_small; lia.
  - intros (Hpos & H & Hw). specialize (P vw w Hw).
    assert (E : (2 ^ Z.of_N vw = 2 * 2 ^ (Z.of_N vw - 1))%Z).
    { replace (Z.of_N vw) with (1 + (Z.of_N vw - 1))%Z at 1 by lia. rewrite Z.pow_add_r by lia. lia. }
    destruct (Z.leb_spec 0 z).
    + rewrite !Z.mod_small; lia.
    + replace ((z mod 2 ^ Z.of_N w + (2 ^ Z.of_N vw - 1) + 1))%Z with (z mod 2 ^ Z.of_N w + 2 ^ Z.of_N vw)%Z by lia.
      rewrite Zplus_mod_idemp_l. rewrite (Z.mod_small (z + _)) by lia.
      rewrite <- (Z.mod_small (z + 2 ^ Z.of_N vw) (2 ^ Z.of_N vw)) by lia.
      replace (z + 2 ^ Z.of_N vw)%Z with (z + 1 * 2 ^ Z.of_N vw)%Z by lia. now rewrite Z.mod_add by lia.
Qed.
