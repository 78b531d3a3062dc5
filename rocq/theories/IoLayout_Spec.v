(** Records laid out at fixed positions of a buffer. *)
From Coq Require Import Permutation.
From Verif Require Import Base Io_Model Io_Spec.

(** A field: a position and the values (with their types) stored there. *)
Definition field := (N * list (vtype * value))%type.
Definition field_types (f : field) : list vtype := map fst (snd f).
Definition field_values (f : field) : list value := map snd (snd f).
Definition field_size (f : field) : N := types_size (field_types f).
Definition field_ok (len : N) (f : field) : Prop :=
  snd f <> [] /\ Forall (fun x => typed (fst x) (snd x)) (snd f) /\ fst f + field_size f <= len.
(** Fields that share no byte. *)
Definition apart (f g : field) : Prop :=
  fst f + field_size f <= fst g \/ fst g + field_size g <= fst f.
(** Offset [i] belongs to the field. *)
Definition covers (f : field) (i : nat) : Prop := fst f <= N.of_nat i /\ N.of_nat i < fst f + field_size f.

(** write_at for each field in turn; [None] if one of the calls does not return. *)
Fixpoint write_fields (ev : env) (fs : list field) (buf : list byte) : option (list byte) :=
  match fs with
  | [] => Some buf
  | (pos, tvs) :: r =>
      match write_at ev (map (fun x => AVal (fst x) (snd x)) tvs) pos buf with
      | (buf', Ok _) => write_fields ev r buf'
      | _ => None
      end
  end.
