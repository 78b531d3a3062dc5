(** C125: saving a collection of identifiable items through a view and loading it again. *)
From Coq Require Import List Lia. Import ListNotations.
From Verif Require Import Base Io_Model Io_Spec IoView_Model IoView_Spec IoPort_Spec Ident_Model Coll_Spec File_Model File_Spec CollSave_Spec CollSave_Proofs.
Local Open Scope N_scope.

(** C125: whatever bytes are loaded, the loop ends because a read finds too little data left, and the collection then
    answers every question as the list of the items whose bytes are the front of the input, the first of each id. *)
Theorem C125_load_any : forall b ev F buf rounds, layout_ok F -> lenN buf < size_mod -> (length buf < rounds)%nat ->
  exists items bs rest c, buf = bs ++ rest /\ Forall (item_fits F) items /\
    args_encoding ev (concat (map (item_args F) items)) bs /\ lenN rest < item_size F /\
    load b ev F rounds (rv_init buf) ic_empty_coll = (Ok tt, c) /\ holds b c (firsts items) /\ NoDup (map it_id (firsts items)).
Proof. exact load_any. Qed.
Print Assumptions C125_load_any.

(** C125: a collection built by any calls and saved on one machine: as many items as have room are written, one after the
    other, and the further writes throw and change nothing.  Any front part of what was written, loaded on another
    machine, gives a collection with the items that lie in it whole, in the same order. *)
Theorem C125_save_load : forall b1 b2 ev1 ev2 F ops xs l c buf k n rounds,
  layout_ok F -> configured_right ev1 -> configured_right ev2 ->
  spec_run ops [] = Some (xs, l) -> ic_run b1 ops ic_empty_coll = (xs, c) -> Forall (item_fits F) l ->
  lenN buf < ptr_max -> k = N.min (lenN l) (lenN buf / item_size F) -> n <= k * item_size F -> (N.to_nat n < rounds)%nat ->
  exists data, save b1 ev1 F c (wv_init buf) =
      Ok (WView data (k * item_size F), repeat (Ok (WOCount (item_size F))) (N.to_nat k) ++
                                        repeat (Throw out_of_range) (N.to_nat (lenN l - k))) /\
    lenN data = lenN buf /\ dropN (k * item_size F) data = dropN (k * item_size F) buf /\
    exists c', load b2 ev2 F rounds (rv_init (takeN n data)) ic_empty_coll = (Ok tt, c') /\
      holds b1 c l /\ holds b2 c' (takeN (n / item_size F) l).
Proof. exact saved_loaded. Qed.
Print Assumptions C125_save_load.

(** C125: what was written is saved in a file with io::write(path, count, buffer) and the process dies at any point of
    that call: from what is in the file the first items are loaded, those that lie in it whole. *)
Theorem C125_crash : forall b1 b2 ev1 ev2 F ops xs l c buf st outs w f p r f' w2 bs rounds,
  layout_ok F -> configured_right ev1 -> configured_right ev2 ->
  spec_run ops [] = Some (xs, l) -> ic_run b1 ops ic_empty_coll = (xs, c) -> Forall (item_fits F) l -> lenN buf < ptr_max ->
  save b1 ev1 F c (wv_init buf) = Ok (st, outs) -> rg_mem r = wv_data st ->
  In f' (fst (write_file_trace w f p (wv_pos st) r)) -> full_reads w2 -> read_file w2 f' p None = Ok bs -> (length bs < rounds)%nat ->
  exists c', load b2 ev2 F rounds (rv_init bs) ic_empty_coll = (Ok tt, c') /\ holds b2 c' (takeN (lenN bs / item_size F) l).
Proof. exact crashed_save. Qed.
Print Assumptions C125_crash.

Definition F21 := Layout big 2 1.
Definition made := [IInsert (mk_item 258 7) all_ok; ITryInsert (mk_item 1 9) all_ok; ITryInsert (mk_item 258 8) all_ok;
                    IInsert (mk_item 3 5) all_ok; IErase 1].
Example C125_nonvacuous : layout_ok F21 /\ configured_right (Env little little) /\ configured_right (Env big big) /\
  (exists xs, spec_run made [] = Some (xs, [mk_item 258 7; mk_item 3 5])) /\
  Forall (item_fits F21) [mk_item 258 7; mk_item 3 5] /\
  save Release (Env little little) F21 (snd (ic_run Release made ic_empty_coll)) (wv_init (repeat x00 7)) =
    Ok (WView [x01; x02; x07; x00; x03; x05; x00] 6, [Ok (WOCount 3); Ok (WOCount 3)]) /\
  save Release (Env little little) F21 (snd (ic_run Release made ic_empty_coll)) (wv_init (repeat x00 5)) =
    Ok (WView [x01; x02; x07; x00; x00] 3, [Ok (WOCount 3); Throw out_of_range]) /\
  (let '(o, c) := load DebugThrow (Env big big) F21 9 (rv_init [x01; x02; x07; x00; x03; x05; x01; x02; x06; x00]) ic_empty_coll in
   o = Ok tt /\ ic_iterate DebugThrow c = Ok [mk_item 258 7; mk_item 3 5]).
Proof.
  split; [unfold layout_ok, F21; cbn [l_id l_data]; split; [lia|]; split; [lia|reflexivity]|].
  split; [reflexivity|]. split; [reflexivity|]. split; [eexists; vm_compute; reflexivity|].
  split; [repeat constructor; reflexivity|]. split; [vm_compute; reflexivity|]. split; [vm_compute; reflexivity|].
  vm_compute. split; reflexivity.
Qed.
Example C125_nonvacuous_crash :
  let w := OS (fun _ => true) (fun _ => true) (fun n => n) [4; 9] in
  let r := Range 1 7 [x01; x02; x07; x00; x03; x05; x00] in
  full_reads w /\ map (fun f' => read_file w f' 3 None) (fst (write_file_trace w (fun _ => Some [x55]) 3 6 r)) =
    [Ok []; Ok [x01; x02; x07; x00]; Ok [x01; x02; x07; x00; x03; x05]] /\
  (let '(o, c) := load Release (Env big big) F21 9 (rv_init [x01; x02; x07; x00]) ic_empty_coll in
   o = Ok tt /\ ic_iterate Release c = Ok [mk_item 258 7]).
Proof. split; [intros n; cbn; lia|]. split; [vm_compute; reflexivity|]. vm_compute. split; reflexivity. Qed.
