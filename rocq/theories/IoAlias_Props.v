(** C111: a range of bytes of the buffer itself. *)
From Coq Require Import List. Import ListNotations.
From Verif Require Import Base Io_Model IoAlias_Model IoAlias_Spec IoAlias_Proofs.
Local Open Scope N_scope.

(** C111: write_at with the [k] bytes of the buffer from [src] on. *)
Theorem C111_write_at_own_bytes : forall buf src k pos,
  src + k <= lenN buf -> lenN buf < size_mod -> pos + k <= lenN buf ->
  exists buf', write_own_at src k pos buf = (buf', Ok (pos + k)) /\
    if (src <? pos) && (pos <? src + k) then repeated buf src pos k buf' else moved buf src pos k buf'.
Proof. exact write_own_at_fits. Qed.
Print Assumptions C111_write_at_own_bytes.
(** C111: write moves the bytes to the front. *)
Theorem C111_write_own_bytes : forall buf src k, src + k <= lenN buf -> lenN buf < size_mod ->
  exists buf', write_own src k buf = (buf', Ok k) /\ moved buf src 0 k buf'.
Proof. exact write_own_spec. Qed.
Print Assumptions C111_write_own_bytes.
(** C111: read_range_at (read_range is position 0) into the [k] bytes of the buffer from [dst] on. *)
Theorem C111_read_range_at_own_bytes : forall buf dst k pos,
  dst + k <= lenN buf -> lenN buf < size_mod -> pos + k <= lenN buf ->
  exists buf', read_own_at dst k pos buf = (buf', Ok tt) /\
    if (pos <? dst) && (dst <? pos + k) then repeated buf pos dst k buf' else moved buf pos dst k buf'.
Proof. exact read_own_at_fits. Qed.
Print Assumptions C111_read_range_at_own_bytes.
(** C111: without room nothing changes. *)
Theorem C111_own_bytes_too_long : forall buf src k pos, pos < size_mod -> k < size_mod -> lenN buf < size_mod -> lenN buf < pos + k ->
  (exists e, write_own_at src k pos buf = (buf, Throw e)) /\ (exists e, read_own_at src k pos buf = (buf, Throw e)).
Proof. exact own_too_long. Qed.
Print Assumptions C111_own_bytes_too_long.
(** C111: bytes are not always moved as they were. *)
Theorem C111_own_bytes_moved_refuted : exists buf buf' src pos k, src + k <= lenN buf /\
  write_own_at src k pos buf = (buf', Ok (pos + k)) /\ ~ moved buf src pos k buf' /\
  exists buf'', read_own_at pos k src buf = (buf'', Ok tt) /\ ~ moved buf src pos k buf''.
Proof. exact own_refuted. Qed.
Print Assumptions C111_own_bytes_moved_refuted.
(** C111: [moved] leaves no choice, so wherever the bytes are moved the result is the one memmove gives. *)
Theorem C111_moved_unique : forall buf src dst k a b,
  dst + k <= lenN buf -> moved buf src dst k a -> moved buf src dst k b -> a = b.
Proof. exact moved_unique. Qed.
Print Assumptions C111_moved_unique.

Example C111_nonvacuous :
  write_own_at 2 3 0 [x01; x02; x03; x04; x05] = ([x03; x04; x05; x04; x05], Ok 3) /\
  write_own_at 0 3 2 [x01; x02; x03; x04; x05] = ([x01; x02; x01; x02; x01], Ok 5) /\
  write_own 2 3 [x01; x02; x03; x04; x05] = ([x03; x04; x05; x04; x05], Ok 3) /\
  read_own_at 0 3 1 [x01; x02; x03; x04; x05] = ([x02; x03; x04; x04; x05], Ok tt) /\
  read_own_at 1 4 0 [x01; x02; x03; x04; x05] = ([x01; x01; x01; x01; x01], Ok tt) /\
  write_own_at 0 3 3 [x01; x02; x03; x04; x05] = ([x01; x02; x03; x04; x05], Throw out_of_range).
Proof. repeat split; vm_compute; reflexivity. Qed.
