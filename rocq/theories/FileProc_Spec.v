From Verif Require Import Base Io_Model File_Model File_Spec FileProc_Model.

(** Writes stay inside their source range (see C23). *)
Definition source_ok (c : pcall) : Prop :=
  match c with PWrite _ _ n r | PTryWrite _ _ n r => n <= lenN (rg_mem r) | _ => True end.
(** The call ended with an exception the allocation of the result threw. *)
Definition alloc_failed (o : pout) : bool :=
  match o with PReadO (Throw bad_alloc) | PReadO (Throw length_error) => true | _ => false end.
Definition count_if {A} (f : A -> bool) (l : list A) : N := lenN (filter f l).

(** ftell reports the size of each file. *)
Definition honest (x : world) : Prop := forall p c, wd_tell x p c = lenN c.
(** Memory suffices for every file there is, and another file can be opened. *)
Definition healthy (x : world) (st : proc) : Prop :=
  honest x /\ (forall n, n <= wd_max x -> wd_alloc x n = true) /\
  (forall p c, pr_fs st p = Some c -> lenN c <= wd_max x) /\ pr_open st < wd_limit x.
(** What a file holds after a call, from the call and what it returned: after a write that succeeded as many of the
    bytes as the system took, otherwise what it held before. *)
Definition file_after (q : path) (before : option (list byte)) (co : pcall * pout) : option (list byte) :=
  match co with
  | (PWrite x p n r, PWriteO (Ok tt)) | (PTryWrite x p n r, PTryWriteO (Ok true)) =>
      if q =? p then Some (takeN (fold_right N.add 0 (wr_pieces (wd_os x))) (takeN n (rg_mem r))) else before
  | _ => before
  end.
(** A file can be opened for writing. *)
Definition writable (x : world) (st : proc) (p : path) : bool := (pr_open st <? wd_limit x) && can_write (wd_os x) p.
