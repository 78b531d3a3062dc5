(** Messages with their length in front, and programs that send and receive them through views. *)
From Coq Require Import List. Import ListNotations.
From Verif Require Import Base Io_Model Io_Spec IoView_Model IoView_Spec.
Local Open Scope N_scope.

(** The number of elements is written first, as an encoded unsigned integer of [pr_bytes] bytes, then the elements. *)
Record protocol := Protocol { pr_order : endian; pr_bytes : nat; pr_elem : scalar }.
Definition length_type (P : protocol) : vtype := TEnc (pr_order P) (pr_bytes P) false.
(** Every number the prefix can hold, times the size of an element, is a size a vector can have. *)
Definition protocol_ok (P : protocol) : Prop :=
  (0 < pr_bytes P)%nat /\ (0 < scalar_bytes (pr_elem P))%nat /\
  256 ^ N.of_nat (pr_bytes P) * (1 + N.of_nat (scalar_bytes (pr_elem P))) + N.of_nat (pr_bytes P) < ptr_max.

(** A message: values of the element type, not more than the prefix can count. *)
Definition message := list value.
Definition message_ok (P : protocol) (m : message) : Prop :=
  Forall (value_ok (pr_elem P)) m /\ lenN m < 256 ^ N.of_nat (pr_bytes P).
Definition message_args (P : protocol) (m : message) : list warg :=
  [AVal (length_type P) (VInt (Z.of_N (lenN m))); ARange (pr_elem P) m].

(** The bytes of messages, one after the other. *)
Definition messages_encoding (ev : env) (P : protocol) (ms : list message) (bs : list byte) : Prop :=
  args_encoding ev (concat (map (message_args P) ms)) bs.

(** The sender: view.write(length, elements) for each message. *)
Definition send (P : protocol) (m : message) : wop := WWrite (message_args P m).

(** How a receiver stopped: no length left, the message cut off, something else, or not yet. *)
Inductive stopped := no_length | cut_off | broken | not_yet.

(** The receiver: for (;;) { n = view.read<length>(); v = vector(n); deliver(view.read_range(v)); } until a call throws
    out_of_range.  What it delivered, how it stopped, where the view is then. *)
Fixpoint receive (ev : env) (P : protocol) (rounds : nat) (v : rview) : list message * stopped * rview :=
  match rounds with
  | O => ([], not_yet, v)
  | S rounds =>
      match rv_step ev v (RRead [length_type P]) with
      | (v, Ok (ROVals [VInt n])) =>
          match rv_step ev v (RReadRange (TPlain (pr_elem P)) (Z.to_nat n)) with
          | (v, Ok (ROVals m)) => let '(ms, s, v) := receive ev P rounds v in (m :: ms, s, v)
          | (v, Throw out_of_range) => ([], cut_off, v)
          | (v, _) => ([], broken, v)
          end
      | (v, Throw out_of_range) => ([], no_length, v)
      | (v, _) => ([], broken, v)
      end
  end.

(** The same with try_read and try_read_range, until a call reports an error. *)
Fixpoint try_receive (ev : env) (P : protocol) (rounds : nat) (v : rview) : list message * stopped * rview :=
  match rounds with
  | O => ([], not_yet, v)
  | S rounds =>
      match rv_step ev v (RTryRead [length_type P]) with
      | (v, Ok (ROTry [RVal (VInt n)])) =>
          match rv_step ev v (RTryReadRange (TPlain (pr_elem P)) (Z.to_nat n)) with
          | (v, Ok (ROTryRange (RVal m))) => let '(ms, s, v) := try_receive ev P rounds v in (m :: ms, s, v)
          | (v, Ok (ROTryRange (RErr _))) => ([], cut_off, v)
          | (v, _) => ([], broken, v)
          end
      | (v, Ok (ROTry [RErr _])) => ([], no_length, v)
      | (v, _) => ([], broken, v)
      end
  end.

(** [rest] does not start with the bytes of a message. *)
Definition no_message (ev : env) (P : protocol) (rest : list byte) : Prop :=
  forall m bs more, message_ok P m -> messages_encoding ev P [m] bs -> rest <> bs ++ more.

(** The bytes that messages take. *)
Definition messages_size (P : protocol) (ms : list message) : N :=
  sum (map (fun m => N.of_nat (pr_bytes P) + lenN m * N.of_nat (scalar_bytes (pr_elem P))) ms).
(** [done] are those of the messages that lie whole in the first [n] bytes. *)
Definition whole_messages (P : protocol) (ms : list message) (n : N) (done rest : list message) : Prop :=
  ms = done ++ rest /\ messages_size P done <= n /\
  match rest with [] => True | m :: _ => n < messages_size P (done ++ [m]) end.
