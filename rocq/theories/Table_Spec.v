(** Tables of text: rows of cells, with one delimiter between rows and another between cells. *)
From Coq Require Import List NArith. Import ListNotations.
From Verif Require Import Base String_Model String_Spec ListText_Spec.
Open Scope N_scope. Open Scope list_scope.

Definition table := list (list (list N)).
(** The writer: join(rows, dr) where each row is join(cells, dc). *)
Definition write_table (max_size dr dc : N) (rows : table) : outcome (list N) :=
  let! lines := each (fun r => join max_size r dc) rows in join max_size lines dr.
(** The reader: split(text, dr, b), and split(line, dc, keep_empty) for each line. *)
Definition read_table (b : split_behaviour) (dr dc : N) (s : list N) : outcome table :=
  let! lines := split (fun _ => true) s dr b in each (fun l => split (fun _ => true) l dc keep_empty) lines.

(** Text that can be in a cell. *)
Definition cell_ok (dr dc : N) (c : list N) : Prop := ~ In dr c /\ ~ In dc c.
(** At least one row, at least one cell in each; the rows may have different lengths. *)
Definition table_ok (dr dc : N) (rows : table) : Prop := rows <> [] /\ Forall (fun r => r <> [] /\ Forall (cell_ok dr dc) r) rows.
Definition table_text (dr dc : N) (rows : table) : list N := joined dr (map (joined dc) rows).
(** The list with another item at an index. *)
Definition set_at {A} (i : nat) (x : A) (l : list A) : list A := firstn i l ++ x :: skipn (S i) l.
(** A row made of one cell without characters. *)
Definition blank (r : list (list N)) : bool := match r with [[]] => true | _ => false end.
