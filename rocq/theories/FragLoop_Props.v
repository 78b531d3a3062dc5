(** C126: searching a fragment string again and again. *)
From Coq Require Import List Sorted Lia. Import ListNotations.
From Verif Require Import Base String_Model Frag_Model Frag_Spec FragLoop_Spec FragLoop_Proofs.
Local Open Scope N_scope.

(** C126: the loop over find(string, pos) finds every occurrence with step 1, and with a greater step, up to the length of
    the string, those that a left-to-right search without overlap finds. *)
Theorem C126_find_all_string_partial : forall b fs sv step rounds, sane fs -> fits fs -> 1 <= step <= lenN sv -> lenN sv < 2 ^ 63 ->
  (length (text fs) < rounds)%nat ->
  exists l, find_all (find_sv b fs sv) step rounds 0 = Ok l /\ all_found (occurs_at sv (text fs)) step l.
Proof. exact find_all_string. Qed.
Print Assumptions C126_find_all_string_partial.

(** C126: the loop over find(character, pos) ends with every occurrence found if each is the last character of its fragment ... *)
Theorem C126_find_all_char_partial : forall fs c rounds, fits fs -> (length (text fs) < rounds)%nat ->
  (forall i, char_at fs c i -> boundary fs (i + 1)) ->
  exists l, find_all (find_char_fs fs c) 1 rounds 0 = Ok l /\ all_found (char_at fs c) 1 l.
Proof. exact find_all_char. Qed.
Print Assumptions C126_find_all_char_partial.
(** ... and otherwise never ends. *)
Theorem C126_find_all_char_never_ends_partial : forall fs c rounds i, fits fs -> char_at fs c i -> ~ boundary fs (i + 1) ->
  find_all (find_char_fs fs c) 1 rounds 0 = Diverge.
Proof. exact find_all_char_never. Qed.
Print Assumptions C126_find_all_char_never_ends_partial.
Theorem C126_find_all_char_refuted : exists fs, to_str fs = Ok [97; 98] /\
  forall rounds, find_all (find_char_fs fs 97) 1 rounds 0 = Diverge.
Proof. exact char_refuted. Qed.
Print Assumptions C126_find_all_char_refuted.

(** C126: splitting with find and substr is split(text, d, keep_empty), but for text that is empty or ends with the
    character the last substr throws ... *)
Theorem C126_split_partial : forall b fs d rounds, sane fs -> fits fs -> (length (text fs) < rounds)%nat ->
  (text fs = [] \/ (exists r, text fs = r ++ [d]) -> split_by_find b fs d rounds 0 = Throw out_of_range) /\
  (text fs <> [] -> ~ (exists r, text fs = r ++ [d]) ->
     split_by_find b fs d rounds 0 = split (fun _ => true) (text fs) d keep_empty).
Proof. exact split_unguarded. Qed.
Print Assumptions C126_split_partial.
(** ... so that the program must not call it there. *)
Theorem C126_split_guarded_partial : forall b fs d rounds, sane fs -> fits fs -> (length (text fs) < rounds)%nat ->
  split_by_find_guarded b fs d rounds 0 = split (fun _ => true) (text fs) d keep_empty.
Proof. exact split_guarded. Qed.
Print Assumptions C126_split_guarded_partial.
Theorem C126_split_refuted : exists fs, to_str fs = Ok [97; 44] /\
  (forall b rounds, (3 <= rounds)%nat -> split_by_find b fs 44 rounds 0 = Throw out_of_range) /\
  split (fun _ => true) [97; 44] 44 keep_empty = Ok [[97]; []].
Proof. exact split_refuted. Qed.
Print Assumptions C126_split_refuted.

Definition aba := [Some [97; 98]; Some [97; 98; 97]].
Definition ends := [Some [98; 97]; Some [99]; Some [97]].
Definition csv := [Some [44; 97]; Some [44; 44]; Some [98]].
Example C126_nonvacuous : sane aba /\ fits aba /\ sane csv /\ fits csv /\ fits ends /\
  find_all (find_sv DebugThrow aba [97; 98; 97]) 1 9 0 = Ok [0; 2] /\
  find_all (find_sv DebugThrow aba [97; 98; 97]) 3 9 0 = Ok [0] /\
  (forall i, char_at ends 97 i -> boundary ends (i + 1)) /\
  find_all (find_char_fs ends 97) 1 9 0 = Ok [1; 3] /\
  char_at aba 97 0 /\ ~ boundary aba (0 + 1) /\
  split_by_find Release csv 44 9 0 = Ok [[]; [97]; []; [98]] /\
  split_by_find_guarded Release (csv ++ [Some [44]]) 44 9 0 = Ok [[]; [97]; []; [98]; []].
Proof.
  split; [split; [discriminate|repeat constructor; discriminate]|]. split; [reflexivity|].
  split; [split; [discriminate|repeat constructor; discriminate]|]. split; [reflexivity|]. split; [reflexivity|].
  split; [vm_compute; reflexivity|]. split; [vm_compute; reflexivity|]. split.
  { intros i H. unfold char_at in H. destruct (N.to_nat i) as [|[|[|[|k]]]] eqn:E; try discriminate H.
    - exists [Some [98; 97]], [Some [99]; Some [97]]. split; [reflexivity|]. change (2 = i + 1). lia.
    - exists ends, []. split; [reflexivity|]. change (4 = i + 1). lia.
    - cbn in H. destruct k; discriminate. }
  split; [vm_compute; reflexivity|]. split; [reflexivity|]. split.
  { intros (pre & post & E & L). destruct pre as [|f [|g [|h pre]]]; [discriminate|injection E as <- _; discriminate| |].
    - injection E as <- <- _. discriminate.
    - injection E as _ _ E. symmetry in E. destruct pre; discriminate. }
  split; vm_compute; reflexivity.
Qed.
