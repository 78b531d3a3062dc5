(** C86.  Fields at fixed, non-overlapping positions of a buffer.  See IoLayout_Spec.v. *)
From Coq Require Import Permutation.
From Verif Require Import Base Io_Model Io_Spec IoLayout_Spec IoLayout_Proofs.

(** Whatever the order of the write_at calls, they succeed and give the same buffer, every field
    reads back, and bytes outside the fields are untouched. *)
Theorem C86_fields_in_any_order : forall ev buf fs,
  lenN buf < size_mod -> Forall (field_ok (lenN buf)) fs -> ForallOrdPairs apart fs ->
  exists buf', (forall gs, Permutation fs gs -> write_fields ev gs buf = Some buf') /\
    length buf' = length buf /\
    (forall f, In f fs -> read_at ev (field_types f) (fst f) buf' = Ok (field_values f)) /\
    (forall i, (forall f, In f fs -> ~ covers f i) -> nth_error buf' i = nth_error buf i).
Proof. exact layout. Qed.
Print Assumptions C86_fields_in_any_order.

(** Writing a field again is the same as having written the new values in the first place. *)
Theorem C86_update : forall ev buf f g fs,
  lenN buf < size_mod -> Forall (field_ok (lenN buf)) (f :: g :: fs) ->
  fst g = fst f -> field_size g = field_size f -> ForallOrdPairs apart (f :: fs) ->
  write_fields ev (f :: fs ++ [g]) buf = write_fields ev (g :: fs) buf.
Proof. exact layout_update. Qed.
Print Assumptions C86_update.

(** A successful write does not change what a read that shares no byte with it does. *)
Theorem C86_disjoint_read : forall ev buf args bs pos buf' n ts q,
  lenN buf < size_mod -> Forall arg_ok args -> args_encoding ev args bs ->
  pos < size_mod -> lenN bs < size_mod -> Forall vtype_ok ts -> q < size_mod -> types_size ts < size_mod ->
  write_at ev args pos buf = (buf', Ok n) -> q + types_size ts <= pos \/ pos + lenN bs <= q ->
  read_at ev ts q buf' = read_at ev ts q buf.
Proof. exact frame_read. Qed.
Print Assumptions C86_disjoint_read.

Definition c86_fields : list field :=
  [(5, [(TEnc big 2 false, VInt 258)]); (0, [(TPlain (SInt 1 true), VInt (-1)); (TEnc little 2 false, VInt 772)]);
   (3, [(TPlain (SPod 1), VPod [x09])])].
Example C86_nonvacuous :
  Forall (field_ok 8) c86_fields /\ ForallOrdPairs apart c86_fields /\
  write_fields (Env little little) c86_fields (repeat x55 8) = Some [xff; x04; x03; x09; x55; x01; x02; x55].
Proof.
  split; [|split; [|vm_compute; reflexivity]].
  - repeat constructor; try discriminate; cbn; lia.
  - repeat constructor; unfold apart; cbn; lia.
Qed.
