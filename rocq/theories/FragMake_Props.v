(** C98: constructing fragment strings with any fragment count, and literals. *)
From Coq Require Import List. Import ListNotations.
From Verif Require Import Base String_Model Frag_Model FragMake_Model Frag_Spec FragMake_Spec FragMake_Proofs.

(** C98.  Built from a C string with [S n] fragments, the length is that of the C string;
    with one fragment to_str returns it, with more it is undefined ... *)
Theorem C98_pointer_partial : forall n mem t, c_string mem t ->
  exists fs, from_ptr_n (S n) (Some mem) = Ok fs /\ length fs = S n /\ text fs = t /\ length_of fs = lenN t /\
    (n = 0%nat -> to_str fs = Ok t) /\ ((0 < n)%nat -> to_str fs = UB).
Proof. exact pointer_any_count. Qed.
Print Assumptions C98_pointer_partial.
(** ... iterating visits the C string exactly if there is one fragment, or two and the string
    is not empty ... *)
Theorem C98_iteration_partial : forall b n mem t fs, c_string mem t -> from_ptr_n (S n) (Some mem) = Ok fs ->
  (walk b fs = Ok t <-> n = 0%nat \/ (n = 1%nat /\ t <> [])).
Proof. exact pointer_iteration. Qed.
Print Assumptions C98_iteration_partial.
(** ... construction itself is undefined exactly for a null pointer or unterminated memory. *)
Theorem C98_pointer_precondition : forall n p,
  from_ptr_n (S n) p = UB <-> forall mem, p = Some mem -> ~ In 0 mem.
Proof. exact pointer_undefined_n. Qed.
Print Assumptions C98_pointer_precondition.
Theorem C98_pointer_refuted : exists mem t fs, c_string mem t /\ t <> [] /\
  from_ptr_n 2 (Some mem) = Ok fs /\ length_of fs = lenN t /\ to_str fs = UB.
Proof. exact pointer_refuted. Qed.
Print Assumptions C98_pointer_refuted.

(** Built from two fragment strings with [n] fragments, [n] at least the sum of theirs: the
    text and the length are those of both together; to_str works exactly with the sum ... *)
Theorem C98_parts_partial : forall n l r, (length l + length r <= n)%nat ->
  exists fs, from_parts n l r = Ok fs /\ length fs = n /\ text fs = text l ++ text r /\
    length_of fs = length_of l + length_of r /\
    ((length l + length r = n)%nat -> forall s t, to_str l = Ok s -> to_str r = Ok t -> to_str fs = Ok (s ++ t)) /\
    ((length l + length r < n)%nat -> to_str fs = UB).
Proof. exact parts_any_count. Qed.
Print Assumptions C98_parts_partial.
(** ... and with fewer fragments the copy runs past the array. *)
Theorem C98_parts_precondition : forall n l r, from_parts n l r = UB <-> (n < length l + length r)%nat.
Proof. exact parts_precondition. Qed.
Print Assumptions C98_parts_precondition.
(** operator+ is the construction with the sum. *)
Theorem C98_parts_is_plus : forall l r, from_parts (length l + length r) l r = Ok (plus l r).
Proof. exact parts_is_plus. Qed.
Print Assumptions C98_parts_is_plus.

(** A literal with the characters [s] reads as [s] if there is no NUL among them, and
    otherwise as the part before the first NUL. *)
Theorem C98_literal_partial : forall s,
  exists fs, literal (s ++ [0]) (lenN s) = Ok fs /\
    (~ In 0 s -> reads_as fs s) /\
    (forall s1 s2, s = s1 ++ 0 :: s2 -> ~ In 0 s1 -> reads_as fs s1).
Proof. exact literal_text. Qed.
Print Assumptions C98_literal_partial.
Theorem C98_literal_refuted : exists s fs, literal (s ++ [0]) (lenN s) = Ok fs /\ length_of fs < lenN s.
Proof. exact literal_refuted. Qed.
Print Assumptions C98_literal_refuted.

Theorem C98_sizes : forall fs, fs_size fs = lenN (text fs) /\ fs_max_size fs = lenN (text fs) /\ fs_capacity fs = lenN (text fs).
Proof. exact sizes_are_length. Qed.
Print Assumptions C98_sizes.

Example C98_nonvacuous : c_string [97; 98; 0; 7] [97; 98] /\
  from_ptr_n 3 (Some [97; 98; 0; 7]) = Ok [Some [97; 98]; None; None] /\
  from_parts 3 [Some [97]] [Some [98]; Some [99]] = Ok [Some [97]; Some [98]; Some [99]] /\
  from_parts 2 [Some [97]] [Some [98]; Some [99]] = UB /\
  literal ([97; 98] ++ [0]) 2 = Ok [Some [97; 98]].
Proof.
  split; [split; [intros [H|[H|[]]]; discriminate|now exists [7]]|]. repeat split.
Qed.
