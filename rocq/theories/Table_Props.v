(** C135: tables of text. *)
From Coq Require Import List NArith Lia. Import ListNotations.
From Verif Require Import Base String_Model String_Spec Table_Spec Table_Proofs.
Open Scope N_scope. Open Scope list_scope.

(** A table that is written comes back, whatever the lengths of its rows. *)
Theorem C135_written_and_read : forall dr dc, dr <> dc -> forall rows max_size,
  table_ok dr dc rows -> lenN (table_text dr dc rows) <= max_size -> max_size < size_mod ->
  write_table max_size dr dc rows = Ok (table_text dr dc rows) /\ read_table keep_empty dr dc (table_text dr dc rows) = Ok rows.
Proof. exact table_back. Qed.
Print Assumptions C135_written_and_read.
(** Every text is the text of a table, the one that the reader gives, and of no other. *)
Theorem C135_every_text : forall dr dc, dr <> dc -> forall s,
  exists rows, table_ok dr dc rows /\ table_text dr dc rows = s /\ read_table keep_empty dr dc s = Ok rows.
Proof. exact any_table. Qed.
Print Assumptions C135_every_text.
Theorem C135_unique : forall dr dc, dr <> dc -> forall s rows rows',
  table_ok dr dc rows -> table_ok dr dc rows' -> table_text dr dc rows = s -> table_text dr dc rows' = s -> rows = rows'.
Proof. exact rows_unique. Qed.
Print Assumptions C135_unique.
(** Changing a cell changes the text of that cell in place, and only that cell when the text is read. *)
Theorem C135_change_cell : forall dr dc, dr <> dc -> forall rows i j r old new max_size,
  table_ok dr dc rows -> nth_error rows i = Some r -> nth_error r j = Some old -> cell_ok dr dc new ->
  let rows' := set_at i (set_at j new r) rows in
  (exists a b, table_text dr dc rows = a ++ old ++ b /\ table_text dr dc rows' = a ++ new ++ b) /\
  (lenN (table_text dr dc rows') <= max_size -> max_size < size_mod ->
   write_table max_size dr dc rows' = Ok (table_text dr dc rows') /\ read_table keep_empty dr dc (table_text dr dc rows') = Ok rows').
Proof. exact change_cell. Qed.
Print Assumptions C135_change_cell.
(** Texts put one behind the other, with a row delimiter between them, hold the rows of both. *)
Theorem C135_appended : forall dr dc, dr <> dc -> forall s t, exists a b,
  read_table keep_empty dr dc s = Ok a /\ read_table keep_empty dr dc t = Ok b /\ read_table keep_empty dr dc (s ++ dr :: t) = Ok (a ++ b).
Proof. exact appended. Qed.
Print Assumptions C135_appended.
(** Splitting the rows with drop_empty leaves out the blank rows and nothing else. *)
Theorem C135_blank_lines : forall dr dc s, exists rows,
  read_table keep_empty dr dc s = Ok rows /\ read_table drop_empty dr dc s = Ok (filter (fun r => negb (blank r)) rows).
Proof. exact blank_lines. Qed.
Print Assumptions C135_blank_lines.

(** "a,b" "" ",c" : three rows, one of them blank. *)
Example C135_nonvacuous :
  table_ok 10 44 [[[97]; [98]]; [[]]; [[]; [99]]] /\ cell_ok 10 44 [100; 100] /\
  write_table 20 10 44 [[[97]; [98]]; [[]]; [[]; [99]]] = Ok [97; 44; 98; 10; 10; 44; 99] /\
  read_table keep_empty 10 44 [97; 44; 98; 10; 10; 44; 99] = Ok [[[97]; [98]]; [[]]; [[]; [99]]] /\
  read_table drop_empty 10 44 [97; 44; 98; 10; 10; 44; 99] = Ok [[[97]; [98]]; [[]; [99]]] /\
  read_table keep_empty 10 44 [97; 44; 100; 100; 10; 10; 44; 99] = Ok (set_at 0 (set_at 1 [100; 100] [[97]; [98]]) [[[97]; [98]]; [[]]; [[]; [99]]]).
Proof.
  split; [|split; [|repeat split; vm_compute; reflexivity]].
  - split; [discriminate|]. repeat constructor; try discriminate; intros H; cbn in H; lia.
  - split; intros H; cbn in H; lia.
Qed.
