(** Model of the writing functions of io/byte_buffer_write.hpp that take a pair of
    iterators.  The iterators are positions [a] and [b] in a buffer; what is behind [b]
    is there to say that it is not touched. *)
From Coq Require Import List. Import ListNotations.
From Verif Require Import Base Io_Model.

(** C++ language (Standard). Running a buffer operation on std::span{begin, end}: bytes outside keep
    their value; the span needs begin <= end, both in the buffer. *)
Definition on_part {A} (buf : list byte) (a b : N) (f : list byte -> wres A) : wres A :=
  if (a <=? b) && (b <=? lenN buf) then
    let '(sp, o) := f (takeN (b - a) (dropN a buf)) in (takeN a buf ++ sp ++ dropN b buf, o)
  else (buf, UB).

(** wite/io/byte_buffer_write.hpp:134-137 write(begin, end, values...) *)
Definition write_iter (ev : env) (args : list warg) (buf : list byte) (a b : N) : wres N :=
  on_part buf a b (write ev args).

(** wite/io/byte_buffer_write.hpp:180-189 try_write(begin, end, value) *)
Definition try_write1_iter (ev : env) (x : warg) (buf : list byte) (a b : N) : wres (result N write_error) :=
  on_part buf a b (try_write1 ev x).

(** wite/io/byte_buffer_write.hpp:216-233 _recursive_try_write(begin, end, values...) and 308-312
    try_write(begin, end, values...) *)
Fixpoint try_write_iter (ev : env) (args : list warg) (buf : list byte) (a b : N) : wres (result N write_error) :=
  match args with
  | [] => (buf, Ok (RVal 0))
  | x :: r =>
      match try_write1_iter ev x buf a b with
      | (buf', Ok (RVal n)) =>
          match r with
          | [] => (buf', Ok (RVal n))
          | _ :: _ =>
              match try_write_iter ev r buf' (a + arg_size x) b with
              | (buf'', Ok (RVal m)) => (buf'', Ok (RVal (sz_add n m)))
              | (buf'', o) => (buf'', o)
              end
          end
      | (buf', o) => (buf', o)
      end
  end.

(** wite/io/byte_buffer_write.hpp:363-367 write_with_endian(begin, end, value, endianness) *)
Definition write_with_endian_iter (ev : env) (n : nat) (sg : bool) (z : Z) (e : endian)
    (buf : list byte) (a b : N) : wres N :=
  on_part buf a b (write_with_endian ev n sg z e).
