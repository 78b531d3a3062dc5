(** Model of writing, and reading into, a range of bytes that lies inside the buffer
    itself (a std::span or view of the same bytes), which Io_Model.v excludes by
    taking the elements of a range as values fixed before the call. *)
From Coq Require Import List. Import ListNotations.
From Verif Require Import Base Io_Model.
Local Open Scope N_scope.

(** wite/io/byte_buffer_write.hpp:51-68 _write_single_range_value where the range is the
    [k] bytes of the buffer from [src] on: each element is read when its turn comes. *)
Fixpoint write_own_elems (k : nat) (src : N) (buf : list byte) (pos done : N) : wres N :=
  match k with
  | O => (buf, Ok done)
  | S k' =>
      match load buf src 1 with
      | Ok b =>
          match store buf pos b with
          | Ok buf' =>
              match advance buf' pos 1 with
              | Ok pos' => write_own_elems k' (src + 1) buf' pos' (sz_add done 1)
              | _ => (buf', UB)
              end
          | _ => (buf, UB)
          end
      | _ => (buf, UB)
      end
  end.

(** wite/io/byte_buffer_write.hpp:123-130 write(buffer, range), the range being the [k] bytes of the buffer from [src] on. *)
Definition write_own (src k : N) (buf : list byte) : wres N :=
  if lenN buf <? k then (buf, Throw out_of_range) else write_own_elems (N.to_nat k) src buf 0 0.

(** wite/io/byte_buffer_write.hpp:281-294 write_at(position, buffer, range), likewise. *)
Definition write_own_at (src k pos : N) (buf : list byte) : wres N :=
  let end_pos := sz_add pos k in
  if end_pos <? pos then (buf, Throw invalid_argument)
  else if lenN buf <? end_pos then (buf, Throw out_of_range)
  else match write_own_elems (N.to_nat k) src buf pos 0 with
       | (buf', Ok n) => (buf', Ok (sz_add pos n))
       | (buf', o) => (buf', o)
       end.

(** wite/io/byte_buffer_read.hpp:95-103 std::ranges::generate into the bytes of the buffer from [dst] on, reading from
    [pos] on: each byte is stored before the next one is read. *)
Fixpoint generate_own (k : nat) (dst : N) (buf : list byte) (pos : N) : wres unit :=
  match k with
  | O => (buf, Ok tt)
  | S k' =>
      match load buf pos 1 with
      | Ok b =>
          match advance buf pos 1 with
          | Ok pos' =>
              match store buf dst b with
              | Ok buf' => generate_own k' (dst + 1) buf' pos'
              | _ => (buf, UB)
              end
          | _ => (buf, UB)
          end
      | _ => (buf, UB)
      end
  end.

(** wite/io/byte_buffer_read.hpp:125-137 read_range_at(position, buffer, range), the range being the [k] bytes of the buffer
    from [dst] on; with position 0 it is read_range, 88-106. *)
Definition read_own_at (dst k pos : N) (buf : list byte) : wres unit :=
  if sz_add pos k <? pos then (buf, Throw invalid_argument)
  else if lenN buf <? pos then (buf, Throw out_of_range)
  else if lenN buf - pos <? k then (buf, Throw out_of_range)
  else generate_own (N.to_nat k) dst buf pos.
