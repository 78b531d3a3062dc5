(** What threads or processes that use the same file system at the same time may rely on. *)
From Coq Require Import List. Import ListNotations.
From Verif Require Import Base Io_Model File_Model FileConc_Model.

Definition path_of (c : fcall) : path := match c with FcRead p _ | FcTryRead p _ | FcWrite p _ | FcTryWrite p _ => p end.
Definition written (c : fcall) : option (list byte) := match c with FcWrite _ d | FcTryWrite _ d => Some d | _ => None end.
Definition uses (cs : list fcall) (p : path) : Prop := exists c, In c cs /\ path_of c = p.
Definition writes (cs : list fcall) (p : path) : Prop := exists c d, In c cs /\ path_of c = p /\ written c = Some d.

(** One call with nobody else there: a read gives the contents, a write replaces them. *)
Definition one_call (f : fs) (c : fcall) : fs * fanswer :=
  match c with
  | FcRead p n =>
      (f, FaRead (match f p with
                  | Some x => Ok (match n with Some k => takeN k x | None => x end)
                  | None => Throw invalid_argument
                  end))
  | FcTryRead p out =>
      (f, match f p with
          | Some x => FaTryRead (takeN (lenN out) x) (RVal (N.min (lenN out) (lenN x)))
          | None => FaTryRead out (RErr rd_file_not_found)
          end)
  | FcWrite p d => (fun q => if q =? p then Some d else f q, FaWrite (Ok tt))
  | FcTryWrite p d => (fun q => if q =? p then Some d else f q, FaTryWrite true)
  end.
Fixpoint one_by_one (f : fs) (cs : list fcall) : fs * list fanswer :=
  match cs with
  | [] => (f, [])
  | c :: r => let '(f1, a) := one_call f c in let '(f2, xs) := one_by_one f1 r in (f2, a :: xs)
  end.

(** Every operation succeeds, though it may move fewer bytes than asked for; how often it is the turn of [i]. *)
Definition works (sched : list (N * N)) : Prop := Forall (fun im => 1 <= snd im) sched.
Fixpoint turns (i : N) (sched : list (N * N)) : N :=
  match sched with [] => 0 | im :: r => (if fst im =? i then 1 else 0) + turns i r end.
(** Its turns only. *)
Definition only (i : N) (sched : list (N * N)) : list (N * N) := filter (fun im => fst im =? i) sched.
Definition ended (st : fsystem) (i : N) : Prop := ft_calls (fy_thread st i) = [].
Definition answers (st : fsystem) (i : N) : list fanswer := ft_answers (fy_thread st i).

(** Nobody else writes the files that [i] uses. *)
Definition undisturbed (progs : N -> list fcall) (i : N) : Prop :=
  forall j p, j <> i -> uses (progs i) p -> ~ writes (progs j) p.

(** Byte [k] may be [b]: it is what was there at the start, or what a call writes there, or a zero in place of one of these. *)
Definition from (f : fs) (progs : N -> list fcall) (p : path) (k : nat) (b : byte) : Prop :=
  (exists x, f p = Some x /\ (nth_error x k = Some b \/ (b = x00 /\ (k < length x)%nat))) \/
  (exists j c d, In c (progs j) /\ path_of c = p /\ written c = Some d /\ (nth_error d k = Some b \/ (b = x00 /\ (k < length d)%nat))).
Definition answer_from (f : fs) (progs : N -> list fcall) (c : fcall) (a : fanswer) : Prop :=
  match c, a with
  | FcRead p n, FaRead o =>
      match o with
      | Ok x => (match n with Some k => lenN x <= k | None => True end) /\ forall k b, nth_error x k = Some b -> from f progs p k b
      | Throw e => e = invalid_argument
      | _ => False
      end
  | FcTryRead p out, FaTryRead out' r =>
      match r with
      | RVal n => n = lenN out' /\ n <= lenN out /\ forall k b, nth_error out' k = Some b -> from f progs p k b \/ nth_error out k = Some b
      | RErr e => e = rd_file_not_found /\ out' = out
      end
  | FcWrite _ _, FaWrite o => o = Ok tt \/ o = Throw invalid_argument
  | FcTryWrite _ _, FaTryWrite _ => True
  | _, _ => False
  end.

(** [x] is a piece of [old], then a piece of [new] at its place, then zeros. *)
Definition torn (old new x : list byte) : Prop :=
  exists a b z, a <= b /\ a <= lenN old /\ x = takeN a old ++ takeN (b - a) (dropN a new) ++ repeat x00 z /\
    (lenN x <= lenN old \/ lenN x <= lenN new).
(** The only write of [p] is one call of thread [w]. *)
Definition one_writer (progs : N -> list fcall) (w : N) (p : path) (new : list byte) : Prop :=
  (exists c, progs w = [c] /\ path_of c = p /\ written c = Some new) /\ forall j, j <> w -> ~ writes (progs j) p.

(** The calls thread [i] has not begun, if it is between two calls. *)
Definition about_to_make (st : fsystem) (i : N) (cs : list fcall) : Prop :=
  ft_calls (fy_thread st i) = cs /\ ft_phase (fy_thread st i) = Before.
(** The answer to a call whose file cannot be opened. *)
Definition refusal (c : fcall) (a : fanswer) : Prop :=
  match c with
  | FcRead _ _ => a = FaRead (Throw invalid_argument)
  | FcTryRead _ out => a = FaTryRead out (RErr rd_file_not_found)
  | FcWrite _ _ => a = FaWrite (Throw invalid_argument)
  | FcTryWrite _ _ => a = FaTryWrite false
  end.
