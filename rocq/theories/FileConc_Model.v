(** The file functions of wite/io/byte_buffer_file.hpp called from several threads or processes at once, one operation of the
    system at a time. *)
From Coq Require Import List. Import ListNotations.
From Verif Require Import Base Io_Model File_Model.

(** wite/io/byte_buffer_file.hpp:86-97 read(path, count), 102-117 try_read(path, out), 122-145 write, 150-177 try_write.  Ranges are
    ranges of bytes; [data] are the bytes the call is asked to write. *)
Inductive fcall :=
| FcRead (p : path) (count : option N) | FcTryRead (p : path) (out : list byte)
| FcWrite (p : path) (data : list byte) | FcTryWrite (p : path) (data : list byte).
(** Model only, no counterpart in the code: what those calls return; for try_read also the range after it. *)
Inductive fanswer :=
| FaRead (o : outcome (list byte)) | FaTryRead (out : list byte) (r : result N read_error)
| FaWrite (o : outcome unit) | FaTryWrite (ok : bool).

(** Model only, no counterpart in the code: how far a call is.  [InRead buf got]: the range to be filled has the contents [buf] and
    [got] has been read; [InWrite d]: [d] bytes have been written. *)
Inductive fphase := Before | Opened | InRead (buf got : list byte) | InWrite (d : N).

(** Model only, no counterpart in the code: what is in the file of an open handle. *)
Definition contents_of (f : fs) (p : path) : list byte := match f p with Some c => c | None => [] end.

(** Standard library and POSIX, write at the position of a handle: the bytes there are replaced; if the file has become shorter than
    the position, the gap is filled with zeros. *)
Definition put_at (c : list byte) (d : N) (piece : list byte) : list byte :=
  takeN d (c ++ zero_bytes (d - lenN c)) ++ piece ++ dropN (d + lenN piece) c.

(** wite/io/byte_buffer_file.hpp:89, 104-106, 125, 137, 152, 167: what a call returns whose file cannot be opened *)
Definition not_opened (c : fcall) : fanswer :=
  match c with
  | FcRead _ _ => FaRead (Throw invalid_argument)
  | FcTryRead _ out => FaTryRead out (RErr rd_file_not_found)
  | FcWrite _ _ => FaWrite (Throw invalid_argument)
  | FcTryWrite _ _ => FaTryWrite false
  end.
(** wite/io/byte_buffer_file.hpp:93, 108-110: the range to be read into, for a file of [n] bytes *)
Definition range_to_fill (c : fcall) (n : N) : list byte :=
  match c with
  | FcRead _ None => zero_bytes n
  | FcRead _ (Some k) => zero_bytes (N.min k n)
  | FcTryRead _ out => if n <? lenN out then takeN n out else out
  | _ => []
  end.
(** wite/io/byte_buffer_file.hpp:96, 115, 130, 144, 160, 176: what a call returns at the end; [out] is the range read into *)
Definition completed (c : fcall) (out : list byte) : fanswer :=
  match c with
  | FcRead _ _ => FaRead (Ok out)
  | FcTryRead _ _ => FaTryRead out (RVal (lenN out))
  | FcWrite _ _ => FaWrite (Ok tt)
  | FcTryWrite _ _ => FaTryWrite true
  end.

(** Model only, no counterpart in the code. *)
Definition call_path (c : fcall) : path := match c with FcRead p _ | FcTryRead p _ | FcWrite p _ | FcTryWrite p _ => p end.

(** wite/io/byte_buffer_file.hpp:59-177: the next operation of a call: opening the file (32-50), taking its size (73-81), moving a piece of
    the data (59-69), closing.  [m] is an oracle: 0 means that the operation fails, anything else is how many bytes the system would
    move.  fread and fwrite go on until everything has been moved or nothing more can be.  Simplified: taking the size and
    moving a piece are one operation each; files are not removed or renamed. *)
Definition call_step (f : fs) (c : fcall) (ph : fphase) (m : N) : fs * (fphase + fanswer) :=
  let p := call_path c in
  match ph, c with
  | Before, (FcRead _ _ | FcTryRead _ _) =>
      if m =? 0 then (f, inr (not_opened c))
      else match f p with Some _ => (f, inl Opened) | None => (f, inr (not_opened c)) end
  | Before, (FcWrite _ _ | FcTryWrite _ _) => if m =? 0 then (f, inr (not_opened c)) else (fs_set f p [], inl (InWrite 0))
  | Opened, _ => (f, inl (InRead (range_to_fill c (lenN (contents_of f p))) []))
  | InRead buf got, _ =>
      match takeN (N.min m (lenN buf - lenN got)) (dropN (lenN got) (contents_of f p)) with
      | [] => (f, inr (completed c (got ++ dropN (lenN got) buf)))
      | piece => (f, inl (InRead buf (got ++ piece)))
      end
  | InWrite d, (FcWrite _ data | FcTryWrite _ data) =>
      match takeN m (dropN d data) with
      | [] => (f, inr (completed c []))
      | piece => (fs_set f p (put_at (contents_of f p) d piece), inl (InWrite (d + lenN piece)))
      end
  | InWrite _, _ => (f, inr (completed c []))
  end.

(** Model only, no counterpart in the code: a thread: the calls it still has to make (the first may be under way), how far the first is,
    the answers so far. *)
Record fthread := FThread { ft_calls : list fcall; ft_phase : fphase; ft_answers : list fanswer }.
(** Model only, no counterpart in the code. *)
Record fsystem := FSystem { fy_fs : fs; fy_thread : N -> fthread }.

(** Model only, no counterpart in the code: one operation of a thread. *)
Definition fthread_step (f : fs) (t : fthread) (m : N) : fs * fthread :=
  match ft_calls t with
  | [] => (f, t)
  | c :: cs =>
      let '(f', r) := call_step f c (ft_phase t) m in
      (f', match r with
           | inl ph => FThread (c :: cs) ph (ft_answers t)
           | inr a => FThread cs Before (ft_answers t ++ [a])
           end)
  end.
(** Model only, no counterpart in the code: the scheduler lets thread [i] do its next operation, which the system answers with [m]. *)
Definition fsystem_step (st : fsystem) (im : N * N) : fsystem :=
  let '(f, t) := fthread_step (fy_fs st) (fy_thread st (fst im)) (snd im) in
  FSystem f (fun k => if k =? fst im then t else fy_thread st k).
(** Model only, no counterpart in the code: a schedule. *)
Definition fsystem_run (sched : list (N * N)) (st : fsystem) : fsystem := fold_left fsystem_step sched st.
(** Model only, no counterpart in the code: the start. *)
Definition fsystem_start (f : fs) (progs : N -> list fcall) : fsystem := FSystem f (fun i => FThread (progs i) Before []).
