(** Model of wite/io: byte order encodings, buffer reads and writes, views.
    Paths are relative to /repo. *)
From Verif Require Import Base.

(** ** Types and values that can go through a buffer *)

(** wite/io/concepts.hpp:48-55 (is_buffer_readable / is_buffer_writeable): a
    non-pointer, non-array type that is plain old data.  [SInt n sg] is an
    integral type of [n] bytes, [SPod n] any other POD type of [n] bytes, whose
    values are identified with their object representations.
    Simplification: types with trap representations (bool read from a byte that
    is neither 0 nor 1) are covered by [SPod] as raw bytes. *)
Inductive scalar := SInt (n : nat) (sg : bool) | SPod (n : nat).

(** wite/io/encoding.hpp:45-130: [TEnc e n sg] is little_endian<T> /
    big_endian<T> of an integral T; the C++ constraint is sizeof(T) > 1 (line 48). *)
Inductive vtype := TPlain (s : scalar) | TEnc (e : endian) (n : nat) (sg : bool).

(** Model only, no counterpart in the code: a C++ value of one of these types. *)
Inductive value := VInt (z : Z) | VPod (bs : list byte).

(** C++ language (Standard): sizeof. *)
Definition scalar_bytes (s : scalar) : nat := match s with SInt n _ => n | SPod n => n end.
(** wite/io/encoding.hpp:50, 61, 97: value_type of an encoded type. *)
Definition scalar_of (t : vtype) : scalar :=
  match t with TPlain s => s | TEnc _ n sg => SInt n sg end.

(** wite/io/byte_utilities.hpp:16-26, value_size<T>(): sizeof, or sizeof of the
    wrapped type for encoded types. *)
Definition value_size (t : vtype) : N := N.of_nat (scalar_bytes (scalar_of t)).

(** The machine's byte order and the one wite was configured with,
    wite/io/encoding.hpp:29-43 (system_native_endianness). *)
Record env := Env { machine : endian; configured : endian }.

(** ** Object representation (C++ language, not wite code) *)

(** C++ language (Standard). The [n] base-256 digits of [u], least significant first. *)
Fixpoint le_bytes (n : nat) (u : N) : list byte :=
  match n with O => [] | S n' => byte_of_N u :: le_bytes n' (u / 256) end.

(** C++ language (Standard): the number with these digits. *)
Fixpoint le_num (bs : list byte) : N :=
  match bs with [] => 0 | b :: r => Byte.to_N b + 256 * le_num r end.

(** C++ language (Standard). The bytes of an integer object in memory, address order. *)
Definition int_to_mem (m : endian) (n : nat) (z : Z) : list byte :=
  let le := le_bytes n (Z.to_N (z mod 2 ^ (8 * Z.of_nat n))) in
  match m with little => le | big => rev le end.

(** C++ language (Standard): the integer with this object representation. *)
Definition int_of_mem (m : endian) (n : nat) (sg : bool) (bs : list byte) : Z :=
  let u := Z.of_N (le_num (match m with little => bs | big => rev bs end)) in
  if sg && (2 ^ (8 * Z.of_nat n - 1) <=? u)%Z then (u - 2 ^ (8 * Z.of_nat n))%Z else u.

(** C++ language (Standard): object representation of a value. *)
Definition to_mem (m : endian) (s : scalar) (v : value) : list byte :=
  match s, v with
  | SInt n _, VInt z => int_to_mem m n z
  | SPod _, VPod bs => bs
  | _, _ => []                       (* excluded by [value_ok] *)
  end.

(** C++ language (Standard): the value with this object representation. *)
Definition of_mem (m : endian) (s : scalar) (bs : list byte) : value :=
  match s with SInt n sg => VInt (int_of_mem m n sg bs) | SPod _ => VPod bs end.

(** C++ language (Standard). Values of a type. *)
Definition int_ok (n : nat) (sg : bool) (z : Z) : Prop :=
  if sg then (- 2 ^ (8 * Z.of_nat n - 1) <= z < 2 ^ (8 * Z.of_nat n - 1))%Z
  else (0 <= z < 2 ^ (8 * Z.of_nat n))%Z.

(** C++ language (Standard): values of a scalar type. *)
Definition value_ok (s : scalar) (v : value) : Prop :=
  match s, v with
  | SInt n sg, VInt z => (0 < n)%nat /\ int_ok n sg z
  | SPod n, VPod bs => (0 < n)%nat /\ length bs = n
  | _, _ => False
  end.

(** ** Encodings *)

(** wite/io/encoding.hpp:67-87 (little_endian::byte_begin) and 103-124
    (big_endian::byte_begin): iterate over the object forwards if the wanted order
    is the configured one, otherwise through a reverse iterator. *)
Definition byte_begin_order {A} (ev : env) (e : endian) (mem : list A) : list A :=
  if endian_eqb e (configured ev) then mem else rev mem.

(** The bytes copy_n takes from a value: byte_buffer_write.hpp:37-42
    (_write_single_encoded_value) and 44-49 (_write_single_value). *)
Definition bytes_of_value (ev : env) (t : vtype) (v : value) : list byte :=
  match t with
  | TPlain s => to_mem (machine ev) s v
  | TEnc e n sg => byte_begin_order ev e (to_mem (machine ev) (SInt n sg) v)
  end.

(** The value made by copying bytes into a fresh object: byte_buffer_read.hpp:41-50.
    Copying through a reverse iterator fills the object from its last byte. *)
Definition value_of_bytes (ev : env) (t : vtype) (bs : list byte) : value :=
  match t with
  | TPlain s => of_mem (machine ev) s bs
  | TEnc e n sg => of_mem (machine ev) (SInt n sg) (byte_begin_order ev e bs)
  end.

(** ** Memory access.  A buffer is a list of bytes, an iterator an offset. *)

(** C++ language (Standard). Reading [n] bytes at offset [pos]; outside the buffer is undefined. *)
Definition load (buf : list byte) (pos n : N) : outcome (list byte) :=
  if pos + n <=? lenN buf then Ok (takeN n (dropN pos buf)) else UB.

(** C++ language (Standard). Storing bytes at offset [pos]; outside the buffer is undefined. *)
Definition store (buf : list byte) (pos : N) (bs : list byte) : outcome (list byte) :=
  if pos + lenN bs <=? lenN buf
  then Ok (takeN pos buf ++ bs ++ dropN (pos + lenN bs) buf) else UB.

(** std::next(it, n) / std::advance inside the buffer; forming an iterator beyond
    the end is undefined. *)
Definition advance (buf : list byte) (pos n : N) : outcome N :=
  if pos + n <=? lenN buf then Ok (pos + n) else UB.

(** ** Reads: wite/io/byte_buffer_read.hpp *)

(** wite/io/types.hpp:57 read_error. *)
Inductive read_error := rd_insufficient_buffer | rd_invalid_position_offset | rd_file_not_found.

(** wite/io/byte_buffer_read.hpp:37-52 unchecked_read: value and next position. *)
Definition unchecked_read (ev : env) (t : vtype) (buf : list byte) (pos : N)
  : outcome (value * N) :=
  let! bs := load buf pos (value_size t) in
  let! next := advance buf pos (value_size t) in
  Ok (value_of_bytes ev t bs, next).

(** wite/io/byte_buffer_read.hpp:58-70 _recursive_read, on the part of the buffer from [pos].  The C++ code
    needs at least one type; the empty list is the end of the recursion. *)
Fixpoint recursive_read (ev : env) (ts : list vtype) (buf : list byte) (pos : N)
  : outcome (list value) :=
  match ts with
  | [] => Ok []
  | t :: r =>
      let! (v, next) := unchecked_read ev t buf pos in
      let! vs := recursive_read ev r buf next in Ok (v :: vs)
  end.

(** byte_utilities.hpp:52-61, byte_count<Ts...>(): consteval sum in size_t. *)
Fixpoint byte_count_ty (ts : list vtype) : N :=
  match ts with [] => 0 | t :: r => sz_add (value_size t) (byte_count_ty r) end.

(** wite/io/byte_buffer_read.hpp:77-84 read *)
Definition read (ev : env) (ts : list vtype) (buf : list byte) : outcome (list value) :=
  if lenN buf <? byte_count_ty ts then Throw out_of_range
  else recursive_read ev ts buf 0.

(** byte_utilities.hpp:28-39, value_size(range) = size() * sizeof(element). *)
Definition range_bytes (s : scalar) (k : N) : N := sz_mul k (N.of_nat (scalar_bytes s)).

(** std::ranges::generate with unchecked_read: byte_buffer_read.hpp:95-103, 162-170.  The elements of the range
    may be encoded (little_endian<T>, big_endian<T>); sizeof such an element is sizeof(T), its base classes
    being empty. *)
Fixpoint generate (ev : env) (t : vtype) (k : nat) (buf : list byte) (pos : N)
  : outcome (list value) :=
  match k with
  | O => Ok []
  | S k' =>
      let! (v, next) := unchecked_read ev t buf pos in
      let! vs := generate ev t k' buf next in Ok (v :: vs)
  end.

(** wite/io/byte_buffer_read.hpp:88-106 read_range; [k] is range.size(). *)
Definition read_range (ev : env) (t : vtype) (k : nat) (buf : list byte) : outcome (list value) :=
  if lenN buf <? range_bytes (scalar_of t) (N.of_nat k) then Throw out_of_range
  else generate ev t k buf 0.

(** std::span{std::next(buffer.begin(), position), buffer.end()}; position <= size. *)
Definition span_from (buf : list byte) (pos : N) : outcome (list byte) :=
  if pos <=? lenN buf then Ok (dropN pos buf) else UB.

(** wite/io/byte_buffer_read.hpp:110-121 read_at *)
Definition read_at (ev : env) (ts : list vtype) (pos : N) (buf : list byte) : outcome (list value) :=
  if sz_add pos (byte_count_ty ts) <? pos then Throw invalid_argument
  else if lenN buf <? pos then Throw out_of_range
  else let! sp := span_from buf pos in read ev ts sp.

(** wite/io/byte_buffer_read.hpp:125-137 read_range_at *)
Definition read_range_at (ev : env) (t : vtype) (k : nat) (pos : N) (buf : list byte)
  : outcome (list value) :=
  if sz_add pos (range_bytes (scalar_of t) (N.of_nat k)) <? pos then Throw invalid_argument
  else if lenN buf <? pos then Throw out_of_range
  else let! sp := span_from buf pos in read_range ev t k sp.

(** wite/io/byte_buffer_read.hpp:143-151 and 177-185 try_read<T> (plain and encoded overloads, same text). *)
Definition try_read1 (ev : env) (t : vtype) (buf : list byte) : outcome (result value read_error) :=
  noexcept
    (if lenN buf <? value_size t then Ok (RErr rd_insufficient_buffer)
     else let! (v, _) := unchecked_read ev t buf 0 in Ok (RVal v)).

(** wite/io/byte_buffer_read.hpp:155-173 try_read_range *)
Definition try_read_range (ev : env) (t : vtype) (k : nat) (buf : list byte)
  : outcome (result (list value) read_error) :=
  noexcept
    (if lenN buf <? range_bytes (scalar_of t) (N.of_nat k) then Ok (RErr rd_insufficient_buffer)
     else let! vs := generate ev t k buf 0 in Ok (RVal vs)).

(** wite/io/byte_buffer_read.hpp:189-217 try_read_at<T> (both overloads). *)
Definition try_read_at1 (ev : env) (t : vtype) (pos : N) (buf : list byte)
  : outcome (result value read_error) :=
  noexcept
    (if sz_add pos (value_size t) <? pos then Ok (RErr rd_invalid_position_offset)
     else if lenN buf <=? pos then Ok (RErr rd_insufficient_buffer)
     else let! sp := span_from buf pos in try_read1 ev t sp).

(** wite/io/byte_buffer_read.hpp:221-233 try_read_range_at *)
Definition try_read_range_at (ev : env) (t : vtype) (k : nat) (pos : N) (buf : list byte)
  : outcome (result (list value) read_error) :=
  noexcept
    (if sz_add pos (range_bytes (scalar_of t) (N.of_nat k)) <? pos then Ok (RErr rd_invalid_position_offset)
     else if lenN buf <=? pos then Ok (RErr rd_insufficient_buffer)
     else let! sp := span_from buf pos in try_read_range ev t k sp).

(** wite/core/result.hpp:47 ok(). *)
Definition is_ok {V E} (r : result V E) : bool := match r with RVal _ => true | RErr _ => false end.

(** wite/io/byte_buffer_read.hpp:239-255 _recursive_try_read and 277-282 try_read<T1,T2,...>: after a failed
    element the rest sees the empty span at the end of the buffer. *)
Fixpoint try_read (ev : env) (ts : list vtype) (buf : list byte)
  : outcome (list (result value read_error)) :=
  match ts with
  | [] => Ok []
  | t :: r =>
      let! first := try_read1 ev t buf in
      let! rest_buf := (if is_ok first then span_from buf (value_size t) else Ok []) in
      let! others := try_read ev r rest_buf in Ok (first :: others)
  end.

(** wite/io/byte_buffer_read.hpp:257-271 _recursive_try_read_at and 286-291: the position moves on by the
    size of the element whether or not it could be read. *)
Fixpoint try_read_at (ev : env) (ts : list vtype) (pos : N) (buf : list byte)
  : outcome (list (result value read_error)) :=
  match ts with
  | [] => Ok []
  | t :: r =>
      let! first := try_read_at1 ev t pos buf in
      let! others := try_read_at ev r (sz_add pos (value_size t)) buf in Ok (first :: others)
  end.

(** wite/io/byte_buffer_read.hpp:297-305 read_with_endian (T integral, wrapped by the requested encoding) *)
Definition read_with_endian (ev : env) (n : nat) (sg : bool) (e : endian) (buf : list byte)
  : outcome (list value) :=
  read ev [match e with little => TEnc little n sg | big => TEnc big n sg end] buf.

(** wite/io/byte_buffer_read.hpp:309-313 from_bytes, 319-323 try_from_bytes *)
Definition from_bytes (ev : env) (t : vtype) (buf : list byte) := read ev [t] buf.
(** wite/io/byte_buffer_read.hpp:319-323 try_from_bytes. *)
Definition try_from_bytes (ev : env) (t : vtype) (buf : list byte) := try_read1 ev t buf.

(** ** Writes: wite/io/byte_buffer_write.hpp *)

(** wite/io/types.hpp:64 write_error. *)
Inductive write_error := wr_insufficient_buffer | wr_invalid_position_offset.

(** wite/io/concepts.hpp:45-55. An argument of a write: a value (plain or encoded) or a sized range of PODs. *)
Inductive warg := AVal (t : vtype) (v : value) | ARange (s : scalar) (vs : list value).

(** byte_utilities.hpp:28-39 value_size(v) *)
Definition arg_size (a : warg) : N :=
  match a with AVal t _ => value_size t | ARange s vs => range_bytes s (lenN vs) end.

(** byte_utilities.hpp:41-50 byte_count(vs...) *)
Fixpoint byte_count (args : list warg) : N :=
  match args with [] => 0 | a :: r => sz_add (arg_size a) (byte_count r) end.

(** Model only, no counterpart in the code. A write returns the buffer it left behind and its outcome. *)
Definition wres (A : Type) : Type := list byte * outcome A.

(** wite/io/byte_buffer_write.hpp:51-68 _write_single_range_value: std::accumulate over the elements, from
    offset [pos] with [done] bytes counted so far. *)
Fixpoint write_range_elems (ev : env) (s : scalar) (vs : list value)
    (buf : list byte) (pos done : N) : wres N :=
  match vs with
  | [] => (buf, Ok done)
  | v :: r =>
      match store buf pos (bytes_of_value ev (TPlain s) v) with
      | Ok buf' =>
          match advance buf' pos (value_size (TPlain s)) with
          | Ok pos' => write_range_elems ev s r buf' pos' (sz_add done (value_size (TPlain s)))
          | _ => (buf', UB)
          end
      | _ => (buf, UB)
      end
  end.

(** wite/io/byte_buffer_write.hpp:74-94 unchecked_write *)
Definition unchecked_write (ev : env) (a : warg) (buf : list byte) (pos : N) : wres N :=
  match a with
  | AVal t v =>
      match store buf pos (bytes_of_value ev t v) with
      | Ok buf' => (buf', Ok (value_size t))
      | _ => (buf, UB)
      end
  | ARange s vs => write_range_elems ev s vs buf pos 0
  end.

(** wite/io/byte_buffer_write.hpp:100-115 _recursive_unsafe_write *)
Fixpoint recursive_unsafe_write (ev : env) (args : list warg) (buf : list byte) (pos : N) : wres N :=
  match args with
  | [] => (buf, Ok 0)
  | a :: r =>
      match unchecked_write ev a buf pos with
      | (buf', Ok out) =>
          match r with
          | [] => (buf', Ok out)
          | _ :: _ =>
              match advance buf' pos (arg_size a) with
              | Ok pos' =>
                  match recursive_unsafe_write ev r buf' pos' with
                  | (buf'', Ok more) => (buf'', Ok (sz_add out more))
                  | (buf'', o) => (buf'', o)
                  end
              | _ => (buf', UB)
              end
          end
      | (buf', o) => (buf', o)
      end
  end.

(** wite/io/byte_buffer_write.hpp:123-130 write(buffer, values...) *)
Definition write (ev : env) (args : list warg) (buf : list byte) : wres N :=
  if lenN buf <? byte_count args then (buf, Throw out_of_range)
  else recursive_unsafe_write ev args buf 0.

(** C++ language (Standard). Running a buffer operation on the span [buf.begin()+pos, buf.end()): bytes
    before the span keep their value. *)
Definition on_span {A} (buf : list byte) (pos : N) (f : list byte -> wres A) : wres A :=
  match span_from buf pos with
  | Ok sp => let '(sp', o) := f sp in (takeN pos buf ++ sp', o)
  | _ => (buf, UB)
  end.

(** wite/io/byte_buffer_write.hpp:145-163 _try_write_single_value / _try_write_range_value, 169-189 try_write
    (one value, range or iterator pair). *)
Definition try_write1 (ev : env) (a : warg) (buf : list byte) : wres (result N write_error) :=
  if lenN buf <? arg_size a then (buf, Ok (RErr wr_insufficient_buffer))
  else let '(buf', o) := unchecked_write ev a buf 0 in (buf', noexcept (omap RVal o)).

(** wite/io/byte_buffer_write.hpp:193-210 try_write_at, one value *)
Definition try_write_at1 (ev : env) (a : warg) (pos : N) (buf : list byte)
  : wres (result N write_error) :=
  if sz_add pos (arg_size a) <? pos then (buf, Ok (RErr wr_invalid_position_offset))
  else if lenN buf <=? pos then (buf, Ok (RErr wr_insufficient_buffer))
  else match on_span buf pos (try_write1 ev a) with
       | (buf', Ok (RVal n)) => (buf', Ok (RVal (sz_add pos n)))
       | (buf', o) => (buf', o)
       end.

(** wite/io/byte_buffer_write.hpp:216-255 _recursive_try_write (both overloads) and 300-313 try_write: the
    rest of the values go to the span behind the first one. *)
Fixpoint try_write (ev : env) (args : list warg) (buf : list byte) : wres (result N write_error) :=
  match args with
  | [] => (buf, Ok (RVal 0))
  | a :: r =>
      match try_write1 ev a buf with
      | (buf', Ok (RVal n)) =>
          match r with
          | [] => (buf', Ok (RVal n))
          | _ :: _ =>
              match on_span buf' (arg_size a) (try_write ev r) with
              | (buf'', Ok (RVal m)) => (buf'', Ok (RVal (sz_add n m)))
              | (buf'', o) => (buf'', o)
              end
          end
      | (buf', o) => (buf', o)
      end
  end.

(** wite/io/byte_buffer_write.hpp:259-274 _recursive_try_write_at and 316-320 try_write_at: the next position
    is the one returned by the previous write. *)
Fixpoint try_write_at (ev : env) (args : list warg) (pos : N) (buf : list byte)
  : wres (result N write_error) :=
  match args with
  | [] => (buf, Ok (RVal pos))
  | a :: r =>
      match try_write_at1 ev a pos buf with
      | (buf', Ok (RVal p)) =>
          match r with
          | [] => (buf', Ok (RVal p))
          | _ :: _ => try_write_at ev r p buf'
          end
      | (buf', o) => (buf', o)
      end
  end.

(** wite/io/byte_buffer_write.hpp:281-294 write_at *)
Definition write_at (ev : env) (args : list warg) (pos : N) (buf : list byte) : wres N :=
  let end_pos := sz_add pos (byte_count args) in
  if end_pos <? pos then (buf, Throw invalid_argument)
  else if lenN buf <? end_pos then (buf, Throw out_of_range)
  else match recursive_unsafe_write ev args buf pos with
       | (buf', Ok n) => (buf', Ok (sz_add pos n))
       | (buf', o) => (buf', o)
       end.

(** wite/io/byte_buffer_write.hpp:324-337 try_to_bytes and 341-349 to_bytes, into a zeroed array of
    sizeof(Value_T) bytes. *)
Definition zero_bytes (n : N) : list byte := repeat x00 (N.to_nat n).
(** wite/io/byte_buffer_write.hpp:341-349 to_bytes. *)
Definition to_bytes (ev : env) (t : vtype) (v : value) : outcome (list byte) :=
  match write ev [AVal t v] (zero_bytes (value_size t)) with
  | (buf, Ok _) => Ok buf
  | (_, Throw e) => Throw e | (_, UB) => UB | (_, Terminate) => Terminate | (_, Diverge) => Diverge
  end.
(** wite/io/byte_buffer_write.hpp:324-337 try_to_bytes. *)
Definition try_to_bytes (ev : env) (t : vtype) (v : value) : outcome (result (list byte) write_error) :=
  match try_write1 ev (AVal t v) (zero_bytes (value_size t)) with
  | (buf, Ok (RVal _)) => Ok (RVal buf)
  | (_, Ok (RErr e)) => Ok (RErr e)
  | (_, Throw e) => Terminate | (_, UB) => UB | (_, Terminate) => Terminate | (_, Diverge) => Diverge
  end.

(** wite/io/byte_buffer_write.hpp:353-367 write_with_endian (both overloads, on a span at [pos]) *)
Definition write_with_endian (ev : env) (n : nat) (sg : bool) (z : Z) (e : endian)
    (buf : list byte) : wres N :=
  write ev [AVal (match e with little => TEnc little n sg | big => TEnc big n sg end) (VInt z)] buf.
