(** C115: split_to with a static_vector of capacity [cap] as its result.  [conv] makes an element of a token: [v_chars] for
    std::string, the identity for std::string_view; [fails k] says which copy of element [k] throws, if any. *)
From Coq Require Import List. Import ListNotations.
From Verif Require Import Base String_Model String_Spec Sv_Model Coll_Spec SplitInto_Model SplitInto_Spec SplitInto_Proofs.

(** C115: the tokens that split_to gives with a std::vector, if there is room for them; otherwise std::terminate. *)
Theorem C115_tokens_or_terminate : forall V cap (conv : view -> V) fails, cap < 2 ^ 63 -> forall s d b,
  exists vs, split_to (fun _ => true) s d b = Ok vs /\
  (lenN vs <= cap -> (forall k, k < lenN vs -> copies (fails k)) ->
     exists out, split_to_static cap conv fails s d b = Ok out /\ holds cap out (map conv vs)) /\
  (cap < lenN vs \/ (exists k, k < lenN vs /\ ~ copies (fails k)) -> split_to_static cap conv fails s d b = Terminate).
Proof. exact @split_static_char. Qed.
Print Assumptions C115_tokens_or_terminate.
(** C115: a text with fewer separators than the capacity always fits; keeping empty tokens, no other does. *)
Theorem C115_fits_keeping_empty : forall V cap (conv : view -> V) s d, cap < 2 ^ 63 ->
  (count_char d s < cap -> exists out, split_to_static cap conv (fun _ => None) s d keep_empty = Ok out) /\
  (cap <= count_char d s -> split_to_static cap conv (fun _ => None) s d keep_empty = Terminate).
Proof. exact @fits_keep. Qed.
Print Assumptions C115_fits_keeping_empty.
Theorem C115_fits_dropping_empty : forall V cap (conv : view -> V) s d, cap < 2 ^ 63 -> count_char d s < cap ->
  exists out, split_to_static cap conv (fun _ => None) s d drop_empty = Ok out.
Proof. exact @fits_drop. Qed.
Print Assumptions C115_fits_dropping_empty.
(** C115: joining the elements gives the text back. *)
Theorem C115_join_back : forall cap fails s d max_size out, cap < 2 ^ 63 -> lenN s <= max_size -> max_size < size_mod ->
  split_to_static cap v_chars fails s d keep_empty = Ok out ->
  exists ts, (forall bld, sv_iterate bld out = Ok ts) /\ join max_size ts d = Ok s.
Proof. exact static_join_back. Qed.
Print Assumptions C115_join_back.
(** C115: from a pointer: nothing for a null pointer, the text before the first NUL otherwise. *)
Theorem C115_pointers : forall V cap (conv : view -> V) fails d b, cap < 2 ^ 63 ->
  (exists out, split_to_static_ptr cap conv fails None d b = Ok out /\ holds cap out []) /\
  forall t rest, ~ In 0 t -> split_to_static_ptr cap conv fails (Some (t ++ 0 :: rest)) d b = split_to_static cap conv fails t d b.
Proof. exact @static_pointers. Qed.
Print Assumptions C115_pointers.

(** "a,,b" into room for three, two and one. *)
Example C115_nonvacuous :
  let text := [97; 44; 44; 98] in
  (exists out, split_to_static 3 v_chars (fun _ => None) text 44 keep_empty = Ok out /\ sv_iterate DebugThrow out = Ok [[97]; []; [98]]) /\
  split_to_static 2 v_chars (fun _ => None) text 44 keep_empty = Terminate /\
  (exists out, split_to_static 2 (fun v => v) (fun _ => None) text 44 drop_empty = Ok out /\
     sv_iterate Release out = Ok [View 0 [97]; View 3 [98]]) /\
  split_to_static 2 v_chars (fun k => if k =? 1 then Some 1 else None) text 44 drop_empty = Terminate /\
  ~ copies (Some 1) /\ copies (Some 2) /\
  split_to_static 1 v_chars (fun _ => None) text 44 drop_empty = Terminate /\
  split_to_static_ptr 1 v_chars (fun _ => None) (Some [97; 44; 44; 0; 98]) 44 drop_empty = split_to_static 1 v_chars (fun _ => None) [97; 44; 44] 44 drop_empty /\
  (exists out, split_to_static 1 v_chars (fun _ => None) [97; 44; 44] 44 drop_empty = Ok out).
Proof. cbv zeta. repeat split; try (eexists; repeat split; reflexivity); unfold copies; try lia. Qed.
