(** C134: binary search through the library's iterators. *)
From Coq Require Import List ZArith. Import ListNotations.
From Verif Require Import Base Bisect_Spec Bisect_Proofs Iter_Model Coll_Spec Frag_Model Frag_Spec FragGap_Spec.

(** In a container with dereferencing iterators (static_vector) whose elements are split by [less], binary search returns, in every
    build and without failing an assertion, the iterator at the first element that is not less, after reading at most [k] of fewer than 2^k elements. *)
Theorem C134_static_vector : forall (V : Type) b (less : V -> bool) (arr : list (option V)) vs rest before after parent k,
  arr = map Some vs ++ rest -> split_at less vs before after -> lenN vs < 2 ^ N.of_nat k ->
  di_bisect b arr less (S k) (di_begin_of parent (lenN vs)) (di_end_of parent (lenN vs)) = Ok (Coll_Spec.at_pos parent (lenN vs) (Z.of_N (lenN before))).
Proof. exact @di_bisect_ok. Qed.
Print Assumptions C134_static_vector.

(** So does binary search in a fragment string, when no piece but the last is empty: the iterator found is begin() + that index. *)
Theorem C134_fragment_string_partial : forall b (less : N -> bool) fs before after k,
  sane fs -> fits fs -> split_at less (text fs) before after -> lenN (text fs) < 2 ^ N.of_nat k ->
  exists it, fs_bisect b fs less (S k) (begin_of fs) (end_of fs) = Ok it /\ next b fs (begin_of fs) (lenN before) = Ok it.
Proof. exact @fs_bisect_ok. Qed.
Print Assumptions C134_fragment_string_partial.

(** With an empty piece between others the search can read outside the text. *)
Theorem C134_fragment_string_refuted : exists fs less before after, fits fs /\ split_at less (text fs) before after /\
  forall b k, lenN (text fs) < 2 ^ N.of_nat k -> fs_bisect b fs less (S k) (begin_of fs) (end_of fs) = misuse b.
Proof. exact fs_bisect_gap. Qed.
Print Assumptions C134_fragment_string_refuted.

(** Five elements of a static_vector of capacity six; a text in three pieces. *)
Example C134_nonvacuous :
  split_at (fun v => v <? 6) [1; 3; 5; 7; 9] [1; 3; 5] [7; 9] /\
  di_bisect DebugThrow [Some 1; Some 3; Some 5; Some 7; Some 9; None] (fun v => v <? 6) 4 (di_begin_of 1 5) (di_end_of 1 5) = Ok (Coll_Spec.at_pos 1 5 3) /\
  sane [Some [1; 3]; Some [5]; Some [7; 9]] /\ fits [Some [1; 3]; Some [5]; Some [7; 9]] /\
  fs_bisect DebugAbort [Some [1; 3]; Some [5]; Some [7; 9]] (fun v => v <? 6) 4 (It 0 0) (It 2 2) = Ok (It 2 0).
Proof. repeat split; try (repeat constructor; discriminate); try discriminate; repeat constructor. Qed.
