From Verif Require Import Base BaseFacts Io_Model Io_Spec Io_Proofs IoRead_Proofs File_Model File_Spec File_Proofs IoPort_Spec.

Definition plain_args (svs : list (scalar * value)) : list warg := map (fun p => AVal (TPlain (fst p)) (snd p)) svs.
Definition plain_types (ss : list scalar) : list vtype := map TPlain ss.

Lemma enc_plain ev svs : enc_args ev (plain_args svs) = concat (map (fun p => to_mem (machine ev) (fst p) (snd p)) svs).
Proof. unfold enc_args, plain_args. rewrite map_map. reflexivity. Qed.

Lemma plain_args_ok svs : Forall (fun p => value_ok (fst p) (snd p)) svs -> Forall arg_ok (plain_args svs).
Proof. intros H. unfold plain_args. rewrite Forall_map. exact H. Qed.

Lemma stream_is_buffer ev svs buf : Forall (fun p => value_ok (fst p) (snd p)) svs ->
  lenN buf = args_size (plain_args svs) -> lenN buf < size_mod ->
  write ev (plain_args svs) buf = (stream_writes ev svs [], Ok (lenN buf)).
Proof.
  intros H L S. pose proof (plain_args_ok svs H) as Ok_. rewrite write_char by (assumption || lia).
  rewrite L, N.ltb_irrefl. f_equal. rewrite splice_0_whole by (rewrite lenN_enc_args; lia || assumption).
  rewrite stream_writes_app, enc_plain. reflexivity.
Qed.

Lemma buffer_as_stream ev ss : forall bs, types_size (plain_types ss) <= lenN bs ->
  stream_reads ev ss (IStream bs true) =
    (IStream (dropN (types_size (plain_types ss)) bs) true, decode_all ev (plain_types ss) bs).
Proof.
  induction ss as [|s r IH]; intros bs H; [cbn [stream_reads plain_types map decode_all]; now rewrite dropN_0|].
  cbn [plain_types map] in *. rewrite types_size_cons in *. fold (plain_types r) in *.
  assert (V : value_size (TPlain s) = N.of_nat (scalar_bytes s)) by reflexivity.
  cbn [stream_reads decode_all]. rewrite enough_stream_read by lia. rewrite V in *. rewrite IH by (rewrite lenN_dropN; lia).
  rewrite dropN_dropN. f_equal. f_equal. f_equal. lia.
Qed.

Lemma stream_read_is_buffer_read ev ss buf : types_size (plain_types ss) < size_mod ->
  match read ev (plain_types ss) buf with
  | Ok vs => stream_reads ev ss (IStream buf true) = (IStream (dropN (types_size (plain_types ss)) buf) true, vs)
  | Throw _ => is_good (fst (stream_reads ev ss (IStream buf true))) = false
  | _ => False
  end.
Proof.
  intros S. rewrite read_char by exact S. destruct (N.ltb_spec (lenN buf) (types_size (plain_types ss))) as [T|T].
  - clear S. revert buf T. induction ss as [|s r IH]; intros buf T; [cbn in T; lia|].
    cbn [plain_types map] in *. rewrite types_size_cons in *. fold (plain_types r) in *.
    assert (V : value_size (TPlain s) = N.of_nat (scalar_bytes s)) by reflexivity. rewrite V in *. cbn [stream_reads].
    destruct (N.ltb_spec (lenN buf) (N.of_nat (scalar_bytes s))) as [U|U].
    + rewrite short_stream_read by exact U. rewrite failed_stream_read. reflexivity.
    + rewrite enough_stream_read by exact U. specialize (IH (dropN (N.of_nat (scalar_bytes s)) buf)).
      rewrite lenN_dropN in IH. specialize (IH ltac:(lia)).
      destruct (stream_reads ev r _) as [st vs]. exact IH.
  - now apply buffer_as_stream.
Qed.

(** ** Between machines *)

Lemma portable_encoding ev1 ev2 t v bs : configured_right ev1 -> configured_right ev2 -> portable t ->
  value_encoding ev1 t v bs -> value_encoding ev2 t v bs.
Proof.
  intros A B P. unfold configured_right in *.
  assert (E1 : forall e, effective ev1 e = e) by (intros e; unfold effective; rewrite A; now destruct (configured ev1)).
  assert (E2 : forall e, effective ev2 e = e) by (intros e; unfold effective; rewrite B; now destruct (configured ev2)).
  destruct t as [[n sg|n]|e n sg], v as [z|b]; cbn [value_encoding portable] in *; try easy.
  - subst n. intros (L & W). split; [exact L|]. intros i Hi. assert (i = 0%nat) by lia. subst i. specialize (W 0%nat Hi).
    destruct (machine ev1), (machine ev2); exact W.
  - rewrite E1, E2. easy.
Qed.

Lemma portable_bytes ev1 ev2 t v : configured_right ev1 -> configured_right ev2 -> portable t -> typed t v ->
  bytes_of_value ev1 t v = bytes_of_value ev2 t v.
Proof.
  intros A B P T. apply (value_encoding_eq ev2 t v); [exact T|].
  apply (portable_encoding ev1 ev2); try assumption. now apply value_encoding_bytes.
Qed.

Lemma portable_enc ev1 ev2 ts vs : configured_right ev1 -> configured_right ev2 -> Forall portable ts -> Forall2 typed ts vs ->
  enc_args ev1 (args_of ts vs) = enc_args ev2 (args_of ts vs).
Proof.
  intros A B P T. induction T as [|t v ts vs Ht _ IH]; [reflexivity|]. inversion P as [|? ? Pt Pr]; subst.
  cbn [args_of combine map]. change (enc_args ?e (?a :: ?x)) with (enc_arg e a ++ enc_args e x). cbn [enc_arg fst snd].
  f_equal; [now apply portable_bytes|now apply IH].
Qed.

Lemma portable_data ev1 ev2 ts vs pos buf buf' n : configured_right ev1 -> configured_right ev2 ->
  Forall portable ts -> Forall2 typed ts vs -> pos < size_mod -> lenN buf < size_mod -> types_size ts < size_mod ->
  write_at ev1 (map (fun p => AVal (fst p) (snd p)) (combine ts vs)) pos buf = (buf', Ok n) ->
  read_at ev2 ts pos buf' = Ok vs /\
  write_at ev2 (map (fun p => AVal (fst p) (snd p)) (combine ts vs)) pos buf = (buf', Ok n).
Proof.
  intros A B P T Hp Hb Hs W. fold (args_of ts vs) in *.
  assert (W2 : write_at ev2 (args_of ts vs) pos buf = (buf', Ok n)).
  { rewrite <- W. pose proof (args_of_ok ts vs T) as Ok_. pose proof (args_of_size ts vs (Forall2_length _ _ _ T)) as Sz.
    rewrite !write_at_char by (assumption || lia). now rewrite (portable_enc ev1 ev2). }
  split; [|exact W2]. exact (write_at_read_at ev2 ts vs pos buf buf' n T Hp Hb Hs W2).
Qed.

Lemma native_not_portable : exists ev1 ev2 t v b1 b2, configured_right ev1 /\ configured_right ev2 /\ typed t v /\
  value_encoding ev1 t v b1 /\ value_encoding ev2 t v b2 /\ b1 <> b2.
Proof.
  exists (Env little little), (Env big big), (TPlain (SInt 2 false)), (VInt 1), [x01; x00], [x00; x01].
  split; [reflexivity|]. split; [reflexivity|]. split; [cbn; lia|].
  assert (T : typed (TPlain (SInt 2 false)) (VInt 1)) by (cbn; lia).
  split; [exact (value_encoding_bytes (Env little little) _ _ T)|]. split; [exact (value_encoding_bytes (Env big big) _ _ T)|discriminate].
Qed.

(** ** Through a file *)

Lemma save_load ev1 ev2 ts vs buf w f p r f' w2 b buf' n : configured_right ev1 -> configured_right ev2 ->
  Forall portable ts -> Forall2 typed ts vs -> lenN buf < size_mod -> types_size ts < size_mod ->
  write ev1 (map (fun p => AVal (fst p) (snd p)) (combine ts vs)) buf = (buf', Ok n) ->
  byte_range_of r -> rg_mem r = buf' -> full_writes w (lenN buf') -> write_file w f p r = (f', Ok tt) ->
  full_reads w2 -> read_file w2 f' p None = Ok b ->
  read ev2 ts b = Ok vs /\ (forall q, q <> p -> f' q = f q).
Proof.
  intros A B P T Hb Hs W R Em Fw Ww Fr Rr. fold (args_of ts vs) in *.
  pose proof (args_of_ok ts vs T) as Ok_. pose proof (args_of_size ts vs (Forall2_length _ _ _ T)) as Sz.
  destruct (file_write_exact w f p r R) as (X & _). { now rewrite Em. }
  rewrite X in Ww. destruct (can_write w p); [|discriminate]. injection Ww as <-.
  rewrite file_read_exact in Rr by exact Fr. destruct (can_read w2 p); [|discriminate].
  unfold fs_set in Rr at 1. rewrite N.eqb_refl in Rr. injection Rr as <-. rewrite Em.
  rewrite write_char in W by (assumption || lia). rewrite Sz in W. destruct (N.ltb_spec (lenN buf) (types_size ts)); [discriminate|].
  injection W as <- <-. pose proof (lenN_enc_args ev1 _ Ok_) as L.
  split; [|intros q N; unfold fs_set; now rewrite (proj2 (N.eqb_neq _ _) N)].
  rewrite read_char by exact Hs. rewrite lenN_splice by lia. rewrite (proj2 (N.ltb_ge _ _)) by lia.
  unfold splice. rewrite takeN_0. cbn [app]. rewrite (portable_enc ev1 ev2) by assumption. now rewrite decode_enc.
Qed.

(** Same machine: any types. *)
Lemma save_load_same ev ts vs buf w f p r f' w2 b buf' n :
  Forall2 typed ts vs -> lenN buf < size_mod -> types_size ts < size_mod ->
  write ev (map (fun p => AVal (fst p) (snd p)) (combine ts vs)) buf = (buf', Ok n) ->
  byte_range_of r -> rg_mem r = buf' -> full_writes w (lenN buf') -> write_file w f p r = (f', Ok tt) ->
  full_reads w2 -> read_file w2 f' p None = Ok b ->
  read ev ts b = Ok vs.
Proof.
  intros T Hb Hs W R Em Fw Ww Fr Rr. fold (args_of ts vs) in *.
  pose proof (args_of_ok ts vs T) as Ok_. pose proof (args_of_size ts vs (Forall2_length _ _ _ T)) as Sz.
  destruct (file_write_exact w f p r R) as (X & _). { now rewrite Em. }
  rewrite X in Ww. destruct (can_write w p); [|discriminate]. injection Ww as <-.
  rewrite file_read_exact in Rr by exact Fr. destruct (can_read w2 p); [|discriminate].
  unfold fs_set in Rr at 1. rewrite N.eqb_refl in Rr. injection Rr as <-. rewrite Em.
  rewrite write_char in W by (assumption || lia). rewrite Sz in W. destruct (N.ltb_spec (lenN buf) (types_size ts)); [discriminate|].
  injection W as <- <-. pose proof (lenN_enc_args ev _ Ok_) as L.
  rewrite read_char by exact Hs. rewrite lenN_splice by lia. rewrite (proj2 (N.ltb_ge _ _)) by lia.
  unfold splice. rewrite takeN_0. cbn [app]. now rewrite decode_enc.
Qed.
