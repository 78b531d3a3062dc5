(** Model of wite/io/byte_buffer_file.hpp with the process around it: open FILE handles,
    allocation failure, what ftell reports, elements of any size.  [File_Model.v] is the same code
    without these. *)
From Verif Require Import Base Io_Model File_Model.

(** Model only, no counterpart in the code: the file system and the number of FILE objects the
    process has open. *)
Record proc := Proc { pr_fs : fs; pr_open : N }.

(** Model only, no counterpart in the code: operating system, C stdio and allocator during one
    call, an oracle. *)
Record world := World {
  wd_os : os;
  wd_limit : N;                     (* fopen fails when this many are open *)
  wd_tell : path -> list byte -> N; (* what ftell reports at the end, as size_t *)
  wd_max : N;                       (* max_size() of a byte vector *)
  wd_alloc : N -> bool              (* whether a byte vector of n bytes can be allocated *)
}.

(** Standard library, fclose. *)
Definition close_handle (st : proc) : proc := Proc (pr_fs st) (pr_open st - 1).

(** wite/io/byte_buffer_file.hpp:31-45 get_read_file_pointer, fopen "rb" *)
Definition open_for_read (x : world) (st : proc) (p : path) : option (proc * list byte) :=
  if pr_open st <? wd_limit x then
    match open_read (wd_os x) (pr_fs st) p with
    | Some c => Some (Proc (pr_fs st) (pr_open st + 1), c)
    | None => None
    end
  else None.

(** wite/io/byte_buffer_file.hpp:49-51 get_write_file_pointer, fopen "wb": the file is created or emptied *)
Definition open_for_write (x : world) (st : proc) (p : path) : option proc :=
  if pr_open st <? wd_limit x then
    match open_write (wd_os x) (pr_fs st) p with
    | Some f => Some (Proc f (pr_open st + 1))
    | None => None
    end
  else None.

(** wite/io/byte_buffer_file.hpp:73-81 file_size; the conversion to size_t is in the oracle *)
Definition reported_size (x : world) (p : path) (c : list byte) : N := wd_tell x p c.

(** Standard library, std::vector<std::byte>(n): n zero bytes. *)
Definition make_bytes (x : world) (n : N) : outcome (list byte) :=
  if wd_max x <? n then Throw length_error
  else if wd_alloc x n then Ok (zero_bytes n) else Throw bad_alloc.

(** wite/io/byte_buffer_file.hpp:59-62 unsafe_read: fread(out.data(), 1, out.size(), file), where size()
    counts elements *)
Definition read_into (x : world) (c : list byte) (out : range) : range :=
  let got := takeN (N.min (rd_moved (wd_os x) (rg_count out)) (rg_count out)) c in
  Range (rg_esize out) (rg_count out) (got ++ dropN (lenN got) (rg_mem out)).

(** wite/io/byte_buffer_file.hpp:86-97 read(path, count) *)
Definition proc_read (x : world) (st : proc) (p : path) (count : option N) : proc * outcome (list byte) :=
  match open_for_read x st p with
  | None => (st, Throw invalid_argument)
  | Some (st1, c) =>
      let n := match count with
               | None => reported_size x p c
               | Some k => N.min k (reported_size x p c)
               end in
      match make_bytes x n with
      | Ok out => (close_handle st1, Ok (rg_mem (read_into x c (Range 1 n out))))
      | Throw e => (st1, Throw e)
      | _ => (st1, UB)
      end
  end.

(** Standard library, std::vector::resize to a smaller size. *)
Definition shrink (out : range) (n : N) : range :=
  Range (rg_esize out) n (takeN (rg_esize out * n) (rg_mem out)).

(** wite/io/byte_buffer_file.hpp:102-117 try_read(path, out) *)
Definition proc_try_read (x : world) (st : proc) (p : path) (out : range) : proc * range * result N read_error :=
  match open_for_read x st p with
  | None => (st, out, RErr rd_file_not_found)
  | Some (st1, c) =>
      let out1 := if reported_size x p c <? rg_count out then shrink out (reported_size x p c) else out in
      let out2 := read_into x c out1 in
      (close_handle st1, out2, RVal (rg_count out2))
  end.

(** wite/io/byte_buffer_file.hpp:66-69 unsafe_write between fopen and fclose of 122-177: every byte
    that reaches the file *)
Definition put_bytes (x : world) (st : proc) (p : path) (data : list byte) : proc :=
  Proc (fs_set (pr_fs st) p (over (pr_fs st) p (takeN (fold_right N.add 0 (wr_pieces (wd_os x))) data))) (pr_open st).

(** wite/io/byte_buffer_file.hpp:122-145 write(path, count, bytes) and write(path, bytes), where count is
    the number of elements *)
Definition proc_write (x : world) (st : proc) (p : path) (count : N) (r : range) : proc * outcome unit :=
  match open_for_write x st p with
  | None => (st, Throw invalid_argument)
  | Some st1 =>
      match source_bytes r count with
      | Ok data => (close_handle (put_bytes x st1 p data), Ok tt)
      | _ => (st1, UB)
      end
  end.

(** wite/io/byte_buffer_file.hpp:150-177 both overloads of try_write *)
Definition proc_try_write (x : world) (st : proc) (p : path) (count : N) (r : range) : proc * outcome bool :=
  match open_for_write x st p with
  | None => (st, Ok false)
  | Some st1 =>
      match source_bytes r count with
      | Ok data => (close_handle (put_bytes x st1 p data), Ok true)
      | _ => (st1, UB)
      end
  end.

(** Model only, no counterpart in the code: calls, each in its own world. *)
Inductive pcall :=
| PRead (x : world) (p : path) (count : option N)
| PTryRead (x : world) (p : path) (out : range)
| PWrite (x : world) (p : path) (count : N) (r : range)
| PTryWrite (x : world) (p : path) (count : N) (r : range).
(** Model only, no counterpart in the code: what a call returns. *)
Inductive pout :=
| PReadO (o : outcome (list byte)) | PTryReadO (out : range) (o : result N read_error)
| PWriteO (o : outcome unit) | PTryWriteO (o : outcome bool).
(** Model only, no counterpart in the code: one call. *)
Definition proc_step (st : proc) (c : pcall) : proc * pout :=
  match c with
  | PRead x p n => let '(st', o) := proc_read x st p n in (st', PReadO o)
  | PTryRead x p out => let '(st', out', o) := proc_try_read x st p out in (st', PTryReadO out' o)
  | PWrite x p n r => let '(st', o) := proc_write x st p n r in (st', PWriteO o)
  | PTryWrite x p n r => let '(st', o) := proc_try_write x st p n r in (st', PTryWriteO o)
  end.
(** Model only, no counterpart in the code: a history of calls. *)
Fixpoint proc_run (st : proc) (cs : list pcall) : proc * list pout :=
  match cs with
  | [] => (st, [])
  | c :: r => let '(st1, o) := proc_step st c in let '(st2, os) := proc_run st1 r in (st2, o :: os)
  end.
