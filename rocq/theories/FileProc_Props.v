(** Property theorems C87 and C88: file handles and what file reads deliver.  A [proc] is the file
    system and the number of open FILE objects; a [world] says what the operating system and the
    allocator do during one call. *)
From Verif Require Import Base Io_Model Io_Spec File_Model File_Spec FileProc_Model FileProc_Spec FileProc_Proofs.

(** C87. *)
Theorem C87_handle_closed_refuted : exists st c, source_ok c /\ pr_open (fst (proc_step st c)) <> pr_open st.
Proof. exact leak_refuted. Qed.
Print Assumptions C87_handle_closed_refuted.
(** After some calls, none of which changed a file, a file that could be read no longer can. *)
Theorem C87_exhaustion_refuted : exists x st p n cs bs, Forall source_ok cs /\ pr_open st < wd_limit x /\
  snd (proc_read x st p n) = Ok bs /\
  let st' := fst (proc_run st cs) in pr_fs st' = pr_fs st /\ snd (proc_read x st' p n) = Throw invalid_argument.
Proof. exact exhaustion_refuted. Qed.
Print Assumptions C87_exhaustion_refuted.
(** One handle is left open for each call that ends with the allocation's exception, no other. *)
Theorem C87_handles_exact_partial : forall cs st, Forall source_ok cs ->
  pr_open (fst (proc_run st cs)) = pr_open st + count_if alloc_failed (snd (proc_run st cs)).
Proof. exact handles_exact. Qed.
Print Assumptions C87_handles_exact_partial.
Theorem C87_closed_partial : forall st c st' o, source_ok c -> proc_step st c = (st', o) ->
  alloc_failed o = false -> pr_open st' = pr_open st.
Proof. exact closed_unless_alloc. Qed.
Print Assumptions C87_closed_partial.
(** Only read(path) of a file that could be opened leaks; never try_read, write or try_write. *)
Theorem C87_only_read_partial : forall st c st' o, source_ok c -> proc_step st c = (st', o) -> alloc_failed o = true ->
  exists x p n e, c = PRead x p n /\ o = PReadO (Throw e) /\ can_read (wd_os x) p = true /\ pr_fs st p <> None.
Proof. exact only_read_leaks. Qed.
Print Assumptions C87_only_read_partial.
(** With enough memory and handles the calls are those of C20 - C23. *)
Theorem C87_healthy_read : forall x st p n, healthy x st ->
  proc_read x st p n = (st, read_file (wd_os x) (pr_fs st) p n).
Proof. exact healthy_read. Qed.
Print Assumptions C87_healthy_read.
Theorem C87_healthy_try_read : forall x st p out, healthy x st -> rg_esize out = 1 -> range_ok out ->
  let '(st', out', o) := proc_try_read x st p out in
  st' = st /\ (rg_mem out', o) = try_read_file (wd_os x) (pr_fs st) p (rg_mem out).
Proof. exact healthy_try_read. Qed.
Print Assumptions C87_healthy_try_read.
Theorem C87_healthy_write : forall x st p n r, healthy x st -> n <= lenN (rg_mem r) ->
  (let '(st', o) := proc_write x st p n r in let '(f', o') := write_file_n (wd_os x) (pr_fs st) p n r in
   pr_open st' = pr_open st /\ (forall q, pr_fs st' q = f' q) /\ o = o') /\
  (let '(st', o) := proc_try_write x st p n r in let '(f', o') := try_write_file_n (wd_os x) (pr_fs st) p n r in
   pr_open st' = pr_open st /\ (forall q, pr_fs st' q = f' q) /\ o = o').
Proof. exact healthy_write. Qed.
Print Assumptions C87_healthy_write.
(** What the files hold after any calls is what the writes that reported success put there; failed writes and reads,
    also those that leak a handle, change no file. *)
Theorem C87_files : forall q cs st, Forall source_ok cs ->
  pr_fs (fst (proc_run st cs)) q = fold_left (file_after q) (combine cs (snd (proc_run st cs))) (pr_fs st q).
Proof. exact run_files. Qed.
Print Assumptions C87_files.
Theorem C87_write_opens : forall x st p n r, n <= lenN (rg_mem r) ->
  snd (proc_step st (PWrite x p n r)) = PWriteO (if writable x st p then Ok tt else Throw invalid_argument) /\
  snd (proc_step st (PTryWrite x p n r)) = PTryWriteO (Ok (writable x st p)).
Proof. exact write_opens. Qed.
Print Assumptions C87_write_opens.
Example C87_nonvacuous :
  let st := Proc (fun p => if p =? 3 then Some [x01; x02; x03] else None) 1 in
  healthy good_world st /\
  (let '(st', outs) := proc_run st [PWrite good_world 4 3 (Range 1 3 [x07; x08; x09]); PRead good_world 4 None;
                                    PTryRead good_world 3 (Range 1 2 [x55; x55]); PRead good_world 5 None] in
   pr_open st' = 1 /\
   outs = [PWriteO (Ok tt); PReadO (Ok [x07; x08; x09]); PTryReadO (Range 1 2 [x01; x02]) (RVal 2); PReadO (Throw invalid_argument)]) /\
  fst (proc_step (Proc (fun _ => Some [x01; x02; x03]) 0) (PRead tight 0 None)) = Proc (fun _ => Some [x01; x02; x03]) 1.
Proof.
  cbv zeta. split; [|split; [vm_compute; auto|reflexivity]].
  split; [intros ? ?; reflexivity|]. split; [reflexivity|]. split; [|reflexivity].
  intros p c. cbn. destruct (p =? 3); [|discriminate]. intros E. injection E as <-. vm_compute. discriminate.
Qed.

(** C88. *)
Theorem C88_short_read_refuted : exists x st p c,
  honest x /\ pr_fs st p = Some c /\
  (exists st' bs, proc_read x st p None = (st', Ok bs) /\ ~ prefix_of bs c) /\
  (exists out st' out' k, rg_esize out = 1 /\ range_ok out /\ proc_try_read x st p out = (st', out', RVal k) /\
     k = rg_count out' /\ ~ prefix_of (rg_mem out') c).
Proof. exact short_read_refuted. Qed.
Print Assumptions C88_short_read_refuted.
(** A vector of wide elements with room for the whole file: size() elements are reported, size()
    bytes are read. *)
Theorem C88_wide_elements_refuted : exists x st p c out st' out' k,
  honest x /\ full_reads (wd_os x) /\ pr_fs st p = Some c /\ range_ok out /\ lenN c = lenN (rg_mem out) /\
  proc_try_read x st p out = (st', out', RVal k) /\ k = rg_count out /\ k = rg_count out' /\ rg_mem out' <> c.
Proof. exact wide_read_refuted. Qed.
Print Assumptions C88_wide_elements_refuted.
Theorem C88_read_delivers_partial : forall x st p n st' bs,
  honest x -> full_reads (wd_os x) -> proc_read x st p n = (st', Ok bs) ->
  exists c, pr_fs st p = Some c /\ bs = match n with None => c | Some j => takeN j c end.
Proof. exact read_delivers. Qed.
Print Assumptions C88_read_delivers_partial.
Theorem C88_try_read_delivers_partial : forall x st p out st' out' k,
  honest x -> full_reads (wd_os x) -> rg_esize out = 1 -> range_ok out ->
  proc_try_read x st p out = (st', out', RVal k) ->
  exists c, pr_fs st p = Some c /\ rg_mem out' = takeN (rg_count out) c /\ k = lenN (rg_mem out').
Proof. exact try_read_delivers. Qed.
Print Assumptions C88_try_read_delivers_partial.
(** Exactly what is delivered whatever fread does: zeros (read) or the old contents (try_read)
    behind the bytes that were read; nothing outside the range is touched. *)
Theorem C88_read_exact_partial : forall x st p n st' bs, proc_read x st p n = (st', Ok bs) ->
  exists c, pr_fs st p = Some c /\
    let k := match n with None => wd_tell x p c | Some j => N.min j (wd_tell x p c) end in
    let m := N.min (N.min (rd_moved (wd_os x) k) k) (lenN c) in
    bs = takeN m c ++ repeat x00 (N.to_nat (k - m)).
Proof. exact read_exact_mem. Qed.
Print Assumptions C88_read_exact_partial.
Theorem C88_try_read_exact_partial : forall x st p out st' out' o, proc_try_read x st p out = (st', out', o) ->
  match o with
  | RErr e => st' = st /\ out' = out
  | RVal k => exists c, pr_fs st p = Some c /\ k = N.min (rg_count out) (wd_tell x p c) /\
      rg_count out' = k /\ rg_esize out' = rg_esize out /\
      let m := N.min (N.min (rd_moved (wd_os x) k) k) (lenN c) in
      1 <= rg_esize out -> range_ok out ->
      rg_mem out' = takeN m c ++ slice (rg_mem out) m (rg_esize out * k - m) /\ range_ok out'
  end.
Proof. exact try_read_exact. Qed.
Print Assumptions C88_try_read_exact_partial.
Example C88_nonvacuous :
  honest good_world /\ full_reads (wd_os good_world) /\
  proc_try_read good_world (Proc (fun _ => Some [x01; x02; x03]) 0) 7 (Range 1 5 (repeat x55 5))
    = (Proc (fun _ => Some [x01; x02; x03]) 0, Range 1 3 [x01; x02; x03], RVal 3) /\
  snd (proc_read short_world (Proc (fun _ => Some [x01; x02; x03]) 0) 7 None) = Ok [x01; x00; x00].
Proof. split; [intros ? ?; reflexivity|]. split; [intros n; cbn; lia|]. split; vm_compute; reflexivity. Qed.
