(** C116: the file functions called from several threads or processes at the same time.  A schedule says whose turn it is and how many bytes
    the system moves (0: the operation fails). *)
From Coq Require Import List. Import ListNotations.
From Verif Require Import Base Io_Model File_Model File_Spec FileConc_Model FileConc_Spec FileConc_Proofs.

(** C116: a thread whose files nobody else writes gets the answers that its calls get one by one with nobody else there, and
    leaves its files so; it finishes after a number of turns that does not depend on the schedule. *)
Theorem C116_own_files : forall f progs i, undisturbed progs i ->
  (exists n, forall sched, works sched -> n <= turns i sched -> ended (fsystem_run sched (fsystem_start f progs)) i) /\
  forall sched, works sched -> let s := fsystem_run sched (fsystem_start f progs) in
  (exists rest, answers s i ++ rest = snd (one_by_one f (progs i))) /\
  (ended s i -> answers s i = snd (one_by_one f (progs i)) /\
    forall p, uses (progs i) p -> fy_fs s p = fst (one_by_one f (progs i)) p).
Proof. exact own_files. Qed.
Print Assumptions C116_own_files.
(** C116: also when operations fail: the turns of the others make no difference to it. *)
Theorem C116_as_alone : forall f progs i sched, undisturbed progs i ->
  let s := fsystem_run sched (fsystem_start f progs) in let s0 := fsystem_run (only i sched) (fsystem_start f progs) in
  answers s i = answers s0 i /\ (ended s i <-> ended s0 i) /\ (forall p, uses (progs i) p -> fy_fs s p = fy_fs s0 p).
Proof. exact as_alone. Qed.
Print Assumptions C116_as_alone.
(** C116: a file that nobody writes does not change. *)
Theorem C116_untouched : forall f progs p sched, (forall j, ~ writes (progs j) p) ->
  fy_fs (fsystem_run sched (fsystem_start f progs)) p = f p.
Proof. exact untouched. Qed.
Print Assumptions C116_untouched.
(** C116: whoever writes what at the same time: byte k of a file or of what is read from it was there at the start, is byte k of
    something written to this file, or is a zero in place of one of these (for try_read also what the range held). *)
Theorem C116_where_bytes_come_from : forall f progs sched, let s := fsystem_run sched (fsystem_start f progs) in
  (forall p x k b, fy_fs s p = Some x -> nth_error x k = Some b -> from f progs p k b) /\
  (forall i, exists made rest, progs i = made ++ rest /\ Forall2 (answer_from f progs) made (answers s i)).
Proof. exact provenance. Qed.
Print Assumptions C116_where_bytes_come_from.
(** C116: with one call that writes a file, the file holds its old contents or a beginning of the new ones, and a read gives a piece
    of the old, then of the new contents, then zeros. *)
Theorem C116_one_writer : forall f progs w p old new sched, one_writer progs w p new -> f p = Some old ->
  let s := fsystem_run sched (fsystem_start f progs) in
  (fy_fs s p = Some old \/ exists k, fy_fs s p = Some (takeN k new)) /\
  (forall i, exists made rest, progs i = made ++ rest /\
    Forall2 (fun c a => forall n x, c = FcRead p n -> a = FaRead (Ok x) -> torn old new x) made (answers s i)).
Proof. exact torn_reads. Qed.
Print Assumptions C116_one_writer.
(** C116: a call whose file cannot be opened says so and changes nothing: no file, and nothing of the other threads. *)
Theorem C116_open_fails : forall f progs sched i c cs, let s := fsystem_run sched (fsystem_start f progs) in
  about_to_make s i (c :: cs) ->
  let s' := fsystem_run (sched ++ [(i, 0)]) (fsystem_start f progs) in
  (exists a, refusal c a /\ answers s' i = answers s i ++ [a]) /\ about_to_make s' i cs /\ fy_fs s' = fy_fs s /\
  forall j, j <> i -> fy_thread s' j = fy_thread s j.
Proof. exact open_fails. Qed.
Print Assumptions C116_open_fails.
(** C116: a read during a write need not give the old or the new contents, even if no operation fails: it can give as many zeros as the
    old contents were long, or a mixture. *)
Theorem C116_read_old_or_new_refuted : exists f progs p old new zeros mix,
  f p = Some old /\ one_writer progs 0 p new /\ progs 1 = [FcRead p None] /\
  let run := fun sched => fsystem_run sched (fsystem_start f progs) in
  (works zeros /\ ended (run zeros) 0 /\ ended (run zeros) 1 /\
     answers (run zeros) 1 = [FaRead (Ok (repeat x00 (length old)))] /\ repeat x00 (length old) <> old /\ repeat x00 (length old) <> new) /\
  (works mix /\ ended (run mix) 0 /\ ended (run mix) 1 /\
     exists x, answers (run mix) 1 = [FaRead (Ok x)] /\ ~ prefix_of x old /\ ~ prefix_of x new /\ Forall (fun b => b <> x00) x).
Proof. exact read_not_atomic. Qed.
Print Assumptions C116_read_old_or_new_refuted.
(** C116: two writes of one file at the same time can both succeed and leave what neither wrote. *)
Theorem C116_one_write_wins_refuted : exists f progs p a b sched x, progs 0 = [FcWrite p a] /\ progs 1 = [FcWrite p b] /\
  let s := fsystem_run sched (fsystem_start f progs) in
  works sched /\ answers s 0 = [FaWrite (Ok tt)] /\ answers s 1 = [FaWrite (Ok tt)] /\ fy_fs s p = Some x /\ x <> a /\ x <> b.
Proof. exact write_not_atomic. Qed.
Print Assumptions C116_one_write_wins_refuted.

(** Three threads: one writes file 1 and reads it back, two read file 2 at the same time, one of them into a range of its own. *)
Definition three (i : N) : list fcall :=
  if i =? 0 then [FcWrite 1 [x01; x02; x03]; FcRead 1 (Some 2); FcRead 3 None]
  else if i =? 1 then [FcRead 2 None; FcTryWrite 4 [x09]] else if i =? 2 then [FcTryRead 2 [x00; x00]] else [].
Example C116_nonvacuous :
  let f := fun q => if q =? 2 then Some [x0a; x0b; x0c] else None in
  let sched := [(0, 1); (1, 5); (2, 7); (0, 1); (2, 1); (1, 1); (0, 2); (0, 1); (1, 2); (2, 1); (0, 1); (1, 1); (2, 1); (0, 1); (2, 1); (1, 1);
                (0, 1); (0, 9); (1, 1); (0, 9); (0, 9); (1, 9); (1, 9); (0, 1)] in
  undisturbed three 0 /\ undisturbed three 1 /\ works sched /\
  (let s := fsystem_run sched (fsystem_start f three) in
   ended s 0 /\ ended s 1 /\ ended s 2 /\
   answers s 0 = [FaWrite (Ok tt); FaRead (Ok [x01; x02]); FaRead (Throw invalid_argument)] /\
   answers s 1 = [FaRead (Ok [x0a; x0b; x0c]); FaTryWrite true] /\ answers s 2 = [FaTryRead [x0a; x0b] (RVal 2)] /\
   fy_fs s 1 = Some [x01; x02; x03] /\ fy_fs s 4 = Some [x09]) /\
  about_to_make (fsystem_run [(0, 1); (1, 5); (0, 3); (0, 1)] (fsystem_start f three)) 0 [FcRead 1 (Some 2); FcRead 3 None].
Proof.
  assert (U : forall i, i = 0 \/ i = 1 -> undisturbed three i).
  { intros i Hi j p D (c & Ic & Pc) (c' & d & Ic' & Pc' & W). unfold three in *.
    destruct (j =? 0) eqn:J0; [|destruct (j =? 1) eqn:J1; [|destruct (j =? 2)]];
    repeat match goal with H : In _ [] |- _ => destruct H | H : In _ (_ :: _) |- _ => destruct H as [H|H]; [subst|] end; try discriminate;
    destruct Hi as [->| ->]; cbn in Ic; cbn in Pc'; 
    repeat match goal with H : False |- _ => destruct H | H : _ \/ _ |- _ => destruct H as [H|H]; [subst|] end; cbn in *; try (subst; discriminate); lia. }
  cbv zeta. split; [apply U; auto|]. split; [apply U; auto|]. split; [repeat constructor; discriminate|].
  repeat split; vm_compute; reflexivity.
Qed.
