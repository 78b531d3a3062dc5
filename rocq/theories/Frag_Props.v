(** C46-C53, C77: fragment strings. *)
From Coq Require Import List. Import ListNotations.
From Verif Require Import Base String_Model Frag_Model Frag_Spec Frag_PropLemmas FragOps_Proofs.

(** C46.  The value of a concatenation of C strings is the concatenation of the
    texts, length() is its length and empty() whether it is empty, for every tree of + ... *)
Theorem C46_concatenation_partial : forall e t, means e t ->
  exists fs, eval e = Ok fs /\ to_str fs = Ok t /\ length_of fs = lenN t /\ (empty fs = true <-> t = []).
Proof. exact concat_texts. Qed.
Print Assumptions C46_concatenation_partial.
(** ... where a null pointer, or memory without a terminating NUL, is undefined, and
    nothing else is ... *)
Theorem C46_pointer_precondition : forall l p,
  (from_ptr p = UB <-> forall mem, p = Some mem -> ~ In 0 mem) /\ (plus_ptr l p = UB <-> forall mem, p = Some mem -> ~ In 0 mem).
Proof. exact pointer_undefined. Qed.
Print Assumptions C46_pointer_precondition.
(** ... + keeps the views of its operands (nothing is copied) and is associative ... *)
Theorem C46_shares_views : forall a b, plus a b = a ++ b /\ length_of (plus a b) = length_of a + length_of b.
Proof. exact plus_shares. Qed.
Print Assumptions C46_shares_views.
Theorem C46_associative : forall a b c, plus (plus a b) c = plus a (plus b c).
Proof. exact plus_assoc_all. Qed.
Print Assumptions C46_associative.
(** ... but to_str of a default-constructed fragment string (length 0) appends a null
    C string, which is undefined, and so for every tree with such a leaf. *)
Theorem C46_default_refuted : exists e fs, eval e = Ok fs /\ length_of fs = 0 /\ to_str fs = UB.
Proof. exact to_str_default. Qed.
Print Assumptions C46_default_refuted.
Theorem C46_default_anywhere_partial : forall fs, In None fs -> to_str fs = UB.
Proof. exact to_str_no_default. Qed.
Print Assumptions C46_default_anywhere_partial.
Example C46_nonvacuous : means (Plus (PlusPtr (Lit [97; 0]) [98; 99; 0; 7]) (Lit [0])) ([97] ++ [98; 99] ++ []) /\
  means (Plus (Lit [97; 0]) (Plus (Lit [0]) (Lit [100; 0]))) ([97] ++ [] ++ [100]).
Proof.
  split.
  - change ([97] ++ [98; 99] ++ []) with (([97] ++ [98; 99]) ++ []). apply means_plus; [|now apply (means_lit [])].
    apply (means_ptr _ _ [98; 99] [7]); [apply (means_lit [97])|]; intros H; repeat (destruct H as [H|H]; try discriminate H); destruct H.
  - apply means_plus; [apply (means_lit [97]); intros [H|[]]; discriminate|].
    apply means_plus; [now apply (means_lit [])|]. apply (means_lit [100]). intros [H|[]]; discriminate.
Qed.

(** C47.  Iteration visits exactly the text, in both directions, if no fragment but
    the last is empty ... *)
Theorem C47_iteration_partial : forall b fs, sane fs -> walk b fs = Ok (text fs) /\ rwalk b fs = Ok (rev (text fs)).
Proof. exact iterate_forwards_backwards. Qed.
Print Assumptions C47_iteration_partial.
(** ... and ++ and -- are inverse ... *)
Theorem C47_inc_dec_partial : forall b fs i, sane fs -> fits fs -> i < lenN (text fs) ->
  exists it it', next b fs (begin_of fs) i = Ok it /\ next b fs (begin_of fs) (i + 1) = Ok it' /\
    it_inc b fs it = Ok it' /\ it_dec b fs it' = Ok it.
Proof. exact inc_dec. Qed.
Print Assumptions C47_inc_dec_partial.
(** ... while with any empty fragment before the last, iterating is undefined. *)
Theorem C47_empty_fragment_refuted : exists fs, eval (PlusPtr (PlusPtr (Lit [97; 0]) [0]) [98; 0]) = Ok fs /\ to_str fs = Ok [97; 98] /\
  walk Release fs = UB /\ walk DebugAbort fs = Terminate /\ walk DebugThrow fs = Throw logic_error.
Proof. exact iterate_refuted. Qed.
Print Assumptions C47_empty_fragment_refuted.
Theorem C47_every_empty_fragment_partial : forall b fs, fs <> [] -> ~ sane fs ->
  walk b fs = match b with Release => UB | DebugAbort => Terminate | DebugThrow => Throw logic_error end.
Proof. exact walk_not_sane. Qed.
Print Assumptions C47_every_empty_fragment_partial.
Definition sample : frags := [Some [97; 98]; Some [99]; Some []].
Example C47_nonvacuous : sane sample /\ fits sample /\ text sample = [97; 98; 99] /\ ~ sane [Some [97]; None; Some [98]].
Proof.
  repeat split; try discriminate.
  - repeat constructor; discriminate.
  - intros [_ H]. inversion H as [|? ? _ H1]; subst. inversion H1 as [|? ? H2 _]; subst. now apply H2.
Qed.

(** C48.  begin() + i refers to character i, begin() + length() is end() ... *)
Theorem C48_begin_plus_partial : forall b fs i, sane fs -> fits fs -> i <= lenN (text fs) ->
  exists it, next b fs (begin_of fs) i = Ok it /\
    (forall c, nth_error (text fs) (N.to_nat i) = Some c -> it_deref b fs it = Ok c) /\
    (i = lenN (text fs) -> it = end_of fs).
Proof. exact begin_plus. Qed.
Print Assumptions C48_begin_plus_partial.
(** ... and differences, order, equality, += and -= follow the positions ... *)
Theorem C48_positions_partial : forall b fs i j, sane fs -> fits fs -> i <= lenN (text fs) -> j <= lenN (text fs) ->
  exists x y, next b fs (begin_of fs) i = Ok x /\ next b fs (begin_of fs) j = Ok y /\
    it_diff fs y x = (Z.of_N j - Z.of_N i)%Z /\ it_cmp x y = (i ?= j) /\ it_eq x y = (i =? j) /\
    seek b fs x (Z.of_N j - Z.of_N i) = Ok y /\ seek_minus b fs x (Z.of_N i - Z.of_N j) = Ok y.
Proof. exact positions. Qed.
Print Assumptions C48_positions_partial.
(** ... but not with empty fragments ... *)
Theorem C48_empty_fragment_refuted : exists fs it, to_str fs = Ok [97; 98] /\ next Release fs (begin_of fs) 1 = Ok it /\ it_deref Release fs it = UB.
Proof. exact begin_plus_refuted. Qed.
Print Assumptions C48_empty_fragment_refuted.
(** ... and begin() + n past the end never returns in a release build (no number of
    rounds of the loop is enough); a debug build reports it. *)
Theorem C48_past_the_end_partial : forall b fs n, fs <> [] -> lenN (text fs) < n ->
  match b with
  | Release => forall fuel, seek_forward fuel b fs (begin_of fs) n = Diverge
  | DebugAbort => seek_forward (length fs + 2) b fs (begin_of fs) n = Terminate
  | DebugThrow => seek_forward (length fs + 2) b fs (begin_of fs) n = Throw logic_error
  end.
Proof. exact begin_plus_past. Qed.
Print Assumptions C48_past_the_end_partial.
Example C48_nonvacuous : next Release sample (begin_of sample) 2 = Ok (It 1 0) /\ it_deref Release sample (It 1 0) = Ok 99 /\
  next Release sample (begin_of sample) 3 = Ok (end_of sample) /\ it_diff sample (end_of sample) (It 0 1) = 2%Z.
Proof. repeat split. Qed.

(** C49.  at(i) throws exactly for i >= length() ... *)
Theorem C49_at_throws : forall b fs i, at_pos b fs i = Throw out_of_range <-> lenN (text fs) <= i.
Proof. exact at_throws. Qed.
Print Assumptions C49_at_throws.
(** ... and at(i) and [i] are character i if no fragment but the last is empty ... *)
Theorem C49_at_partial : forall b fs i, sane fs -> fits fs ->
  at_pos b fs i = match nth_error (text fs) (N.to_nat i) with Some c => Ok c | None => Throw out_of_range end.
Proof. exact at_ok. Qed.
Print Assumptions C49_at_partial.
Theorem C49_subscript_partial : forall b fs i c, sane fs -> fits fs -> nth_error (text fs) (N.to_nat i) = Some c -> subscript b fs i = Ok c.
Proof. exact subscript_ok. Qed.
Print Assumptions C49_subscript_partial.
(** ... and front and back are the first and last characters if the last is not empty
    either ... *)
Theorem C49_front_back_partial : forall b fs s c d, sane fs -> chars (last fs None) <> [] ->
  text fs = c :: s -> text fs = removelast (text fs) ++ [d] -> front b fs = Ok c /\ back b fs = Ok d.
Proof. exact front_back. Qed.
Print Assumptions C49_front_back_partial.
(** ... while each is undefined for some string with an empty fragment. *)
Theorem C49_empty_fragment_refuted : exists fs1 fs2 fs3,
  to_str fs1 = Ok [97; 98] /\ at_pos Release fs1 1 = UB /\
  to_str fs2 = Ok [97] /\ front Release fs2 = UB /\
  to_str fs3 = Ok [97] /\ back Release fs3 = UB.
Proof. exact access_refuted. Qed.
Print Assumptions C49_empty_fragment_refuted.
Example C49_nonvacuous : at_pos DebugThrow sample 2 = Ok 99 /\ at_pos DebugThrow sample 3 = Throw out_of_range /\
  front Release [Some [97]; Some [98]] = Ok 97 /\ back Release [Some [97]; Some [98]] = Ok 98.
Proof. repeat split. Qed.

(** C50.  compare is the lexicographic order of the texts for the order of the
    characters as values of the type, whatever the fragments ... *)
Theorem C50_compare_partial : forall b ct fs os, sane fs -> sane os -> Forall (code_ok ct) (text fs) -> Forall (code_ok ct) (text os) ->
  exists r, compare_fs b ct fs os = Ok r /\ (r = 0%Z <-> text fs = text os) /\
    ((r < 0)%Z <-> lex_less (fun x y => (code_value ct x < code_value ct y)%Z) (text fs) (text os)) /\
    ((0 < r)%Z <-> lex_less (fun x y => (code_value ct x < code_value ct y)%Z) (text os) (text fs)).
Proof. exact compare_spec. Qed.
Print Assumptions C50_compare_partial.
Theorem C50_compare_string_partial : forall b ct fs s, sane fs -> Forall (code_ok ct) (text fs) -> Forall (code_ok ct) s ->
  exists r, compare_sv b ct fs s = Ok r /\ (r = 0%Z <-> text fs = s) /\
    ((r < 0)%Z <-> lex_less (fun x y => (code_value ct x < code_value ct y)%Z) (text fs) s) /\
    ((0 < r)%Z <-> lex_less (fun x y => (code_value ct x < code_value ct y)%Z) s (text fs)).
Proof. exact compare_sv_spec. Qed.
Print Assumptions C50_compare_string_partial.
(** ... which for a signed char is not the order of std::string (characters as
    unsigned values) ... *)
Theorem C50_string_order_refuted : exists fs os, to_str fs = Ok [200] /\ to_str os = Ok [97] /\
  compare_fs Release (CChar true) fs os = Ok (-1)%Z /\ lex_less N.lt [97] [200].
Proof. exact compare_refuted. Qed.
Print Assumptions C50_string_order_refuted.
(** ... and does depend on the fragments if some are empty. *)
Theorem C50_empty_fragment_refuted : exists fs os, to_str fs = Ok [97; 98] /\ to_str os = Ok [97; 98] /\
  compare_fs Release (CChar false) fs os = UB.
Proof. exact compare_empty_refuted. Qed.
Print Assumptions C50_empty_fragment_refuted.
(** starts_with and ends_with agree with the text unless it is empty ... *)
Theorem C50_starts_ends_partial : forall b fs os, sane fs -> sane os -> fits fs -> text fs <> [] ->
  exists r r', starts_with b fs os = Ok r /\ (r = true <-> prefix_of (text os) (text fs)) /\
    ends_with b fs os = Ok r' /\ (r' = true <-> suffix_of (text os) (text fs)).
Proof. exact starts_ends. Qed.
Print Assumptions C50_starts_ends_partial.
Theorem C50_starts_ends_empty_partial : forall b fs os, text fs = [] -> starts_with b fs os = Ok false /\ ends_with b fs os = Ok false.
Proof. exact starts_ends_empty_this. Qed.
Print Assumptions C50_starts_ends_empty_partial.
(** ... when even the empty string is not found. *)
Theorem C50_starts_ends_refuted : exists fs os, to_str fs = Ok [] /\ to_str os = Ok [] /\
  starts_with Release fs os = Ok false /\ ends_with Release fs os = Ok false.
Proof. exact starts_ends_refuted. Qed.
Print Assumptions C50_starts_ends_refuted.
Theorem C50_starts_ends_char_partial : forall b fs c, sane fs -> (text fs <> [] -> chars (last fs None) <> []) ->
  exists r r', starts_with_char b fs c = Ok r /\ (r = true <-> prefix_of [c] (text fs)) /\
    ends_with_char b fs c = Ok r' /\ (r' = true <-> suffix_of [c] (text fs)).
Proof. exact starts_ends_char. Qed.
Print Assumptions C50_starts_ends_char_partial.
Theorem C50_ends_char_refuted : exists fs, to_str fs = Ok [97] /\ ends_with_char Release fs 97 = UB.
Proof. exact ends_char_refuted. Qed.
Print Assumptions C50_ends_char_refuted.
Example C50_nonvacuous : sane sample /\ Forall (code_ok (CChar true)) (text sample) /\
  compare_sv Release (CChar true) sample [97; 98; 100] = Ok (-1)%Z /\ starts_with Release sample [Some [97]; Some [98]] = Ok true /\
  ends_with Release sample [Some [98]; Some [99]] = Ok true /\ ends_with Release sample [Some [97]] = Ok false.
Proof. split; [exact (proj1 C47_nonvacuous)|]. split; [repeat constructor|]. repeat split. Qed.

(** C51.  find(c) gives the first c ... *)
Theorem C51_find_char_from_start_partial : forall fs c, fits fs ->
  exists r, find_char_fs fs c 0 = Ok r /\ first_match (fun i => nth_error (text fs) (N.to_nat i) = Some c) 0 r.
Proof. exact find_char_first. Qed.
Print Assumptions C51_find_char_from_start_partial.
(** ... but find(c, pos) searches from the start of the fragment holding pos, so it
    can report a position before pos. *)
Theorem C51_find_char_refuted : exists fs, to_str fs = Ok [97; 98; 97] /\ find_char_fs fs 97 1 = Ok 0.
Proof. exact find_char_refuted. Qed.
Print Assumptions C51_find_char_refuted.
Theorem C51_find_char_partial : forall fs c pos, fits fs -> pos < lenN (text fs) -> (pos = 0 -> sane fs) ->
  exists start r, find_char_fs fs c pos = Ok r /\ fragment_start fs pos start /\
    first_match (fun i => nth_error (text fs) (N.to_nat i) = Some c) start r.
Proof. exact find_char_spec'. Qed.
Print Assumptions C51_find_char_partial.
Theorem C51_find_char_past_partial : forall fs c pos, lenN (text fs) <= pos -> find_char_fs fs c pos = Ok npos.
Proof. exact find_char_past. Qed.
Print Assumptions C51_find_char_past_partial.
(** find(s, pos) gives the first match from pos on, if pos + |s| does not wrap and a
    match of a fitting s does not start at the end ... *)
Theorem C51_find_string_partial : forall b fs sv pos, sane fs -> fits fs -> pos + lenN sv < size_mod ->
  pos < lenN (text fs) \/ pos = 0 \/ lenN (text fs) < pos + lenN sv ->
  exists r, find_sv b fs sv pos = Ok r /\ first_match (occurs_at sv (text fs)) pos r.
Proof. exact find_sv_ok. Qed.
Print Assumptions C51_find_string_partial.
(** ... and runs off the fragments otherwise: for find("", length()), and for
    positions close to 2^64. *)
Theorem C51_find_string_outside_partial : forall b fs sv pos, pos <> 0 -> lenN (text fs) <= pos ->
  sz_add pos (lenN sv) <= lenN (text fs) -> lenN sv <= lenN (text fs) -> find_sv b fs sv pos = UB.
Proof. exact find_sv_outside. Qed.
Print Assumptions C51_find_string_outside_partial.
Theorem C51_find_string_refuted : exists fs1 fs2,
  to_str fs1 = Ok [97; 98] /\ (forall b, find_sv b fs1 [] 2 = UB) /\ occurs_at [] [97; 98] 2 /\
  to_str fs2 = Ok [97; 98] /\ (forall b, find_sv b fs2 [97; 98] npos = UB) /\ ~ exists i, npos <= i /\ occurs_at [97; 98] [97; 98] i.
Proof. exact find_sv_refuted. Qed.
Print Assumptions C51_find_string_refuted.
Example C51_nonvacuous : find_sv Release sample [98; 99] 0 = Ok 1 /\ find_sv Release sample [98; 99] 2 = Ok npos /\
  find_char_fs sample 99 1 = Ok 2 /\ fragment_start sample 1 0.
Proof. repeat split. exists [], (Some [97; 98]), [Some [99]; Some []]. repeat split; discriminate. Qed.

(** C52.  contains(c) is exact ... *)
Theorem C52_contains_char : forall fs c, contains_char fs c = true <-> In c (text fs).
Proof. exact contains_char_ok. Qed.
Print Assumptions C52_contains_char.
(** ... contains(s) too without empty fragments ... *)
Theorem C52_contains_string_partial : forall b fs sv, sane fs -> fits fs -> lenN sv < size_mod ->
  exists r, contains_sv b fs sv = Ok r /\ (r = true <-> occurs sv (text fs)).
Proof. exact contains_sv_ok. Qed.
Print Assumptions C52_contains_string_partial.
Theorem C52_contains_string_refuted : exists fs, to_str fs = Ok [97; 98] /\ contains_sv Release fs [98] = UB.
Proof. exact contains_sv_empty_refuted. Qed.
Print Assumptions C52_contains_string_refuted.
(** ... but contains(fragment_string) misses a match at the very end: a string does
    not contain itself. *)
Theorem C52_contains_itself_refuted : exists fs, to_str fs = Ok [97; 98] /\ contains_fs Release fs fs = Ok false /\ occurs [97; 98] [97; 98].
Proof. exact contains_fs_refuted. Qed.
Print Assumptions C52_contains_itself_refuted.
Theorem C52_contains_fragments_partial : forall b fs os, sane fs -> sane os -> fits fs ->
  exists r, contains_fs b fs os = Ok r /\
    (r = true <-> exists j, j + lenN (text os) < lenN (text fs) /\ occurs_at (text os) (text fs) j).
Proof. exact contains_fs_ok. Qed.
Print Assumptions C52_contains_fragments_partial.
Example C52_nonvacuous : contains_fs Release sample [Some [97]; Some [98]] = Ok true /\ contains_fs Release sample [Some [98; 99]] = Ok false /\
  contains_sv Release sample [98; 99] = Ok true /\ contains_char sample 99 = true.
Proof. repeat split. Qed.

(** C53.  substr and copy throw for pos >= length() ... *)
Theorem C53_throws : forall b fs dest count pos, lenN (text fs) <= pos ->
  substr b fs pos count = Throw out_of_range /\ copy b fs dest count pos = Throw out_of_range.
Proof. intros b fs dest count pos L. exact (conj (substr_throws b fs pos count L) (copy_throws b fs dest count pos L)). Qed.
Print Assumptions C53_throws.
(** ... and otherwise give the text of std::string's, if pos + count does not wrap ... *)
Theorem C53_substr_partial : forall b fs pos count, sane fs -> fits fs -> pos < lenN (text fs) -> pos + count < size_mod \/ count = npos ->
  substr b fs pos count = Ok (slice (text fs) pos count).
Proof. exact substr_ok. Qed.
Print Assumptions C53_substr_partial.
(** ... which it does for some counts other than npos; then substr is undefined. *)
Theorem C53_substr_refuted : exists fs, to_str fs = Ok [97; 98; 99] /\ (forall b, substr b fs 2 (size_mod - 2) = UB) /\
  slice [97; 98; 99] 2 (size_mod - 2) = [99].
Proof. exact substr_refuted. Qed.
Print Assumptions C53_substr_refuted.
Theorem C53_substr_wraps_partial : forall b fs pos count, sane fs -> fits fs -> pos < lenN (text fs) -> count < npos ->
  size_mod <= pos + count -> substr b fs pos count = UB.
Proof. exact substr_wrap. Qed.
Print Assumptions C53_substr_wraps_partial.
(** copy writes exactly min(count, length() - pos) characters and leaves the rest of
    the destination; a shorter destination is overrun. *)
Theorem C53_copy_partial : forall b fs dest count pos, sane fs -> fits fs -> pos < lenN (text fs) ->
  N.min count (lenN (text fs) - pos) <= lenN dest ->
  copy b fs dest count pos =
    Ok (slice (text fs) pos count ++ dropN (N.min count (lenN (text fs) - pos)) dest, N.min count (lenN (text fs) - pos)).
Proof. exact copy_ok. Qed.
Print Assumptions C53_copy_partial.
Theorem C53_copy_overrun_partial : forall b fs dest count pos, sane fs -> fits fs -> pos < lenN (text fs) ->
  lenN dest < N.min count (lenN (text fs) - pos) -> copy b fs dest count pos = UB.
Proof. exact copy_ub. Qed.
Print Assumptions C53_copy_overrun_partial.
Example C53_nonvacuous : substr Release sample 1 5 = Ok [98; 99] /\ substr Release sample 1 npos = Ok [98; 99] /\
  copy Release sample [1; 2; 3; 4] 2 1 = Ok ([98; 99; 3; 4], 2).
Proof. repeat split. Qed.

(** C77.  os << fs writes the text if the stream has no field width ... *)
Theorem C77_plain_partial : forall fill fs, print 0 fill fs = text fs.
Proof. exact print_plain. Qed.
Print Assumptions C77_plain_partial.
(** ... but with a width the padding is computed from the first fragment alone. *)
Theorem C77_width_refuted : exists fs, to_str fs = Ok [97; 98; 99] /\ print 3 32 fs = [32; 32; 97; 98; 99] /\
  insert_text 3 32 [97; 98; 99] = [97; 98; 99].
Proof. exact print_refuted. Qed.
Print Assumptions C77_width_refuted.
Theorem C77_width_partial : forall width fill f fs,
  print width fill (f :: fs) = repeat fill (N.to_nat (width - lenN (chars f))) ++ text (f :: fs).
Proof. exact print_exact. Qed.
Print Assumptions C77_width_partial.
Example C77_nonvacuous : print 0 32 sample = [97; 98; 99] /\ print 4 32 sample = [32; 32; 97; 98; 99].
Proof. repeat split. Qed.
