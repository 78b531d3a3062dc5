(** Model of wite/io/byte_buffer_file.hpp, byte_stream.hpp and to_integer
    (types.hpp). *)
From Verif Require Import Base Io_Model.

(** ** Files *)

(** Model only, no counterpart in the code: std::filesystem::path as a parameter of wite/io/byte_buffer_file.hpp:31-177. The file system: the contents of each existing regular file.  Paths are
    opaque. *)
Definition path := N.
(** Model only, no counterpart in the code: the file system. *)
Definition fs := path -> option (list byte).
(** Model only, no counterpart in the code: one file's contents replaced. *)
Definition fs_set (f : fs) (p : path) (c : list byte) : fs :=
  fun q => if q =? p then Some c else f q.

(** Model only, no counterpart in the code: operating system and C stdio, an oracle. What the operating system decides: which paths can be opened, how many of
    the bytes asked for a transfer really moves (C stdio: fread / fwrite may move
    fewer, and fclose may fail to flush), and in what pieces written data reaches
    the file. *)
Record os := OS {
  can_read : path -> bool;
  can_write : path -> bool;
  rd_moved : N -> N;           (* bytes fread moves when asked for n; capped at n *)
  wr_pieces : list N           (* sizes of the pieces that reach the file, in order *)
}.

(** A contiguous range of [rg_count] elements of [rg_esize] bytes;
    [rg_mem] is its object representation (common/concepts.hpp:51-58,
    contiguous_range_like: any range with begin, end and data; the element type
    is not constrained). *)
Record range := Range { rg_esize : N; rg_count : N; rg_mem : list byte }.
(** Model only, no counterpart in the code: the memory has the size the type says. *)
Definition range_ok (r : range) : Prop := lenN (rg_mem r) = rg_esize r * rg_count r.

(** wite/io/byte_buffer_file.hpp:31-50 get_read_file_pointer: fopen "rb" needs an existing, readable file. *)
Definition open_read (w : os) (f : fs) (p : path) : option (list byte) :=
  if can_read w p then f p else None.

(** wite/io/byte_buffer_file.hpp:31-50 get_write_file_pointer: fopen "wb" creates the file or empties it. *)
Definition open_write (w : os) (f : fs) (p : path) : option fs :=
  if can_write w p then Some (fs_set f p []) else None.

(** wite/io/byte_buffer_file.hpp:59-62 unsafe_read: fread(out.data(), 1, out.size(), file); the result is
    ignored and the rest of [out] keeps its contents.  [n] is out.size(). *)
Definition unsafe_read (w : os) (content : list byte) (n : N) (out : list byte) : list byte :=
  let got := takeN (N.min (rd_moved w n) n) content in
  got ++ dropN (lenN got) out.

(** wite/io/byte_buffer_file.hpp:73-81 file_size (ftell / fseek assumed to succeed on regular files). *)
Definition file_size (content : list byte) : N := lenN content.

(** wite/io/byte_buffer_file.hpp:86-97 read(path, count) into a zeroed vector *)
Definition read_file (w : os) (f : fs) (p : path) (count : option N) : outcome (list byte) :=
  match open_read w f p with
  | None => Throw invalid_argument
  | Some c =>
      let n := match count with None => file_size c | Some k => N.min k (file_size c) end in
      Ok (unsafe_read w c n (zero_bytes n))
  end.

(** wite/io/byte_buffer_file.hpp:102-117 try_read(path, out), [out] a vector of bytes *)
Definition try_read_file (w : os) (f : fs) (p : path) (out : list byte)
  : list byte * result N read_error :=
  match open_read w f p with
  | None => (out, RErr rd_file_not_found)
  | Some c =>
      let out1 := if file_size c <? lenN out then takeN (file_size c) out else out in
      let out2 := unsafe_read w c (lenN out1) out1 in
      (out2, RVal (lenN out2))
  end.

(** wite/io/byte_buffer_file.hpp:66-69 unsafe_write: fwrite(bytes.data(), 1, count, file); reading [count]
    bytes from the range's memory is undefined if it has fewer. *)
Definition source_bytes (r : range) (count : N) : outcome (list byte) :=
  if count <=? lenN (rg_mem r) then Ok (takeN count (rg_mem r)) else UB.

(** Model only, no counterpart in the code: observing wite/io/byte_buffer_file.hpp:66-69. The file contents after each piece of the data has reached the file. *)
Fixpoint growing (done : N) (pieces : list N) (data : list byte) : list (list byte) :=
  match pieces with
  | [] => []
  | k :: r => takeN (done + k) data :: growing (done + k) r data
  end.

(** Standard library, fwrite in wite/io/byte_buffer_file.hpp:66-69: bytes written from the start of the file
    the handle is open on replace what is there; what lies behind them stays. *)
Definition over (f1 : fs) (p : path) (c : list byte) : list byte :=
  c ++ dropN (lenN c) (match f1 p with Some old => old | None => [] end).

(** wite/io/byte_buffer_file.hpp:122-131 / 150-162: open, write [count] bytes, close.  Returns every state
    of the file system the call goes through after the initial one, in order (a
    crash leaves one of them or the initial one), and the outcome. *)
Definition write_file_trace (w : os) (f : fs) (p : path) (count : N) (r : range)
  : list fs * outcome bool :=
  match open_write w f p with
  | None => ([], Ok false)
  | Some f1 =>
      match source_bytes r count with
      | Ok data => (f1 :: map (fun c => fs_set f p (over f1 p c)) (growing 0 (wr_pieces w) data), Ok true)
      | _ => ([f1], UB)
      end
  end.

(** Model only, no counterpart in the code. The state a call that is not interrupted leaves. *)
Definition final (f : fs) (tr : list fs) : fs := last tr f.

(** wite/io/byte_buffer_file.hpp:122-131 write(path, count, bytes) *)
Definition write_file_n (w : os) (f : fs) (p : path) (count : N) (r : range) : fs * outcome unit :=
  let '(tr, o) := write_file_trace w f p count r in
  (final f tr, let! ok := o in if ok then Ok tt else Throw invalid_argument).
(** wite/io/byte_buffer_file.hpp:135-145 write(path, bytes): count is the number of elements *)
Definition write_file (w : os) (f : fs) (p : path) (r : range) : fs * outcome unit :=
  write_file_n w f p (rg_count r) r.
(** wite/io/byte_buffer_file.hpp:150-161 try_write(path, count, bytes) *)
Definition try_write_file_n (w : os) (f : fs) (p : path) (count : N) (r : range) : fs * outcome bool :=
  let '(tr, o) := write_file_trace w f p count r in (final f tr, noexcept o).
(** wite/io/byte_buffer_file.hpp:165-177 try_write(path, bytes) *)
Definition try_write_file (w : os) (f : fs) (p : path) (r : range) : fs * outcome bool :=
  let '(tr, o) := write_file_trace w f p (rg_count r) r in (final f tr, o).

(** Model only, no counterpart in the code: calls of wite/io/byte_buffer_file.hpp:135-145 and 166-177. Histories of whole-range writes, each with its own operating system behaviour. *)
Inductive fop := FWrite (w : os) (p : path) (r : range) | FTryWrite (w : os) (p : path) (r : range).
(** Model only, no counterpart in the code: one of those calls. *)
Definition fstep (f : fs) (o : fop) : fs :=
  match o with
  | FWrite w p r => fst (write_file w f p r)
  | FTryWrite w p r => fst (try_write_file w f p r)
  end.

(** ** Streams: wite/io/byte_stream.hpp *)

(** Standard library, std::istream. An input stream: unread bytes and whether the stream state is good. *)
Record istream := IStream { is_rest : list byte; is_good : bool }.

(** wite/io/byte_stream.hpp:25-32 read: value-initialise (all bytes zero), then stream.read.  std::istream
    extracts nothing if the state is not good; otherwise it extracts up to [n]
    bytes and sets eofbit and failbit if there are fewer. *)
Definition stream_read (ev : env) (s : scalar) (st : istream) : istream * value :=
  let n := N.of_nat (scalar_bytes s) in
  if is_good st then
    let got := takeN n (is_rest st) in
    (IStream (dropN n (is_rest st)) (n <=? lenN (is_rest st)),
     of_mem (machine ev) s (got ++ dropN (lenN got) (zero_bytes n)))
  else (st, of_mem (machine ev) s (zero_bytes n)).

(** Model only, no counterpart in the code: successive calls of wite/io/byte_stream.hpp:25-32. *)
Fixpoint stream_reads (ev : env) (ss : list scalar) (st : istream) : istream * list value :=
  match ss with
  | [] => (st, [])
  | s :: r =>
      let '(st1, v) := stream_read ev s st in
      let '(st2, vs) := stream_reads ev r st1 in (st2, v :: vs)
  end.

(** wite/io/byte_stream.hpp:36-40 write: on a good stream the object representation is appended. *)
Definition stream_write (ev : env) (s : scalar) (v : value) (out : list byte) : list byte :=
  out ++ to_mem (machine ev) s v.
(** Model only, no counterpart in the code: successive calls of wite/io/byte_stream.hpp:36-40. *)
Fixpoint stream_writes (ev : env) (svs : list (scalar * value)) (out : list byte) : list byte :=
  match svs with [] => out | (s, v) :: r => stream_writes ev r (stream_write ev s v out) end.

(** ** to_integer: wite/io/types.hpp:26-46 *)

(** The kinds of argument: std::byte, an unsigned or a signed integer type.  The
    concept byte_like (common/concepts.hpp:20-21) only asks for sizeof(t) == 1 to be a
    valid expression, so any integer type is accepted: [vw] is its width in bits. *)
Inductive byte_kind := KStdByte | KUnsigned (vw : N) | KSigned (vw : N).

(** C++ language (Standard). static_cast<Result_T> for an unsigned Result_T of [w] bits *)
Definition to_unsigned (w : N) (z : Z) : Z := (z mod 2 ^ Z.of_N w)%Z.

(** wite/io/types.hpp:26-46 to_integer. [z] is the value of the argument in its own type.  The sum on line 39 is
    computed in a type at least as wide as Result_T and converted to Result_T on
    return; modulo 2^w this is the same. *)
Definition to_integer (w : N) (k : byte_kind) (z : Z) : Z :=
  match k with
  | KStdByte | KUnsigned _ => to_unsigned w z
  | KSigned vw =>
      if (0 <=? z)%Z then to_unsigned w z
      else to_unsigned w (to_unsigned w z + (2 ^ Z.of_N vw - 1) + 1)
  end.
