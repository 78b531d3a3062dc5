(** Changing the byte order of data through views. *)
From Coq Require Import List. Import ListNotations.
From Verif Require Import Base Io_Model Io_Spec IoView_Model IoView_Spec.
Local Open Scope N_scope.

(** An integer type: its size in bytes, and whether it is signed. *)
Definition field : Type := nat * bool.
Definition field_ok (f : field) : Prop := (0 < fst f)%nat /\ N.of_nat (fst f) < ptr_max.
Definition fields_size (fs : list field) : N := sum (map (fun f => N.of_nat (fst f)) fs).

(** for each field: out.write(To{in.read<From<T>>()}).  The views, and how it ends. *)
Fixpoint convert (ev : env) (from to : endian) (fs : list field) (r : rview) (w : wview) : rview * wview * outcome unit :=
  match fs with
  | [] => (r, w, Ok tt)
  | (n, sg) :: fs =>
      match rv_step ev r (RRead [TEnc from n sg]) with
      | (r, Ok (ROVals [v])) =>
          match wv_step ev w (WWrite [AVal (TEnc to n sg) v]) with
          | (w, Ok (WOCount _)) => convert ev from to fs r w
          | (w, Throw e) => (r, w, Throw e)
          | (w, _) => (r, w, UB)
          end
      | (r, Throw e) => (r, w, Throw e)
      | (r, _) => (r, w, UB)
      end
  end.
(** The same with a read view and a write view of one buffer. *)
Fixpoint convert_in_place (ev : env) (from to : endian) (fs : list field) (st : shared) : shared * outcome unit :=
  match fs with
  | [] => (st, Ok tt)
  | (n, sg) :: fs =>
      match sh_step ev st (SR 0 (RRead [TEnc from n sg])) with
      | (st, SRo (Ok (ROVals [v]))) =>
          match sh_step ev st (SW 0 (WWrite [AVal (TEnc to n sg) v])) with
          | (st, SWo (Ok (WOCount _))) => convert_in_place ev from to fs st
          | (st, SWo (Throw e)) => (st, Throw e)
          | (st, _) => (st, UB)
          end
      | (st, SRo (Throw e)) => (st, Throw e)
      | (st, _) => (st, UB)
      end
  end.

(** The bytes of each field reversed if the byte orders differ. *)
Fixpoint reordered (from to : endian) (fs : list field) (bs : list byte) : list byte :=
  match fs with
  | [] => []
  | (n, _) :: fs => (match from, to with little, little | big, big => firstn n bs | _, _ => rev (firstn n bs) end) ++ reordered from to fs (skipn n bs)
  end.
