(** Logs: records written one after the other, saved to a file, and read back. *)
From Coq Require Import List. Import ListNotations.
From Verif Require Import Base Io_Model Io_Spec IoView_Model IoView_Spec IoPort_Spec.
Local Open Scope N_scope.

(** A record: some values with their types. *)
Definition record := list (vtype * value).
Definition types_of (r : record) : list vtype := map fst r.
Definition values_of (r : record) : list value := map snd r.
Definition record_ok (r : record) : Prop :=
  r <> [] /\ Forall (fun x => vtype_ok (fst x) /\ typed (fst x) (snd x)) r /\ types_size (types_of r) < ptr_max.

(** view.write(v1, ..., vn) and view.read<T1, ..., Tn>() *)
Definition write_record (r : record) : wop := WWrite (map (fun x => AVal (fst x) (snd x)) r).
Definition read_record (r : record) : rop := RRead (types_of r).

(** The bytes that records take. *)
Definition log_size (rs : list record) : N := sum (map (fun r => types_size (types_of r)) rs).

(** The reader is the machine that wrote, or all values are of types that do not depend on the machine. *)
Definition can_exchange (ev1 ev2 : env) (rs : list record) : Prop :=
  ev1 = ev2 \/ (configured_right ev1 /\ configured_right ev2 /\ Forall (fun r => Forall portable (types_of r)) rs).

(** [done] are those of the records [rs] that lie whole in the first [n] bytes of the log. *)
Definition whole_records (rs : list record) (n : N) (done rest : list record) : Prop :=
  rs = done ++ rest /\ log_size done <= n /\ match rest with [] => True | r :: _ => n < log_size (done ++ [r]) end.
