(** C47, C48, C50-C53: positions, matching and searching in fragment strings with empty fragments. *)
From Coq Require Import List. Import ListNotations.
From Verif Require Import Base String_Model Frag_Model Frag_Spec FragGap_Spec FragSearch_Proofs.

(** C47.  ++ followed by -- returns to the same position; ++ fails exactly where an empty fragment starts,
    and no build notices. *)
Theorem C47_inc_dec_any_partial : forall b fs i, fits fs -> i < lenN (text fs) ->
  exists it, next b fs (begin_of fs) i = Ok it /\
    (gap_at fs i -> it_inc b fs it = UB) /\
    (~ gap_at fs i -> exists it', it_inc b fs it = Ok it' /\ next b fs (begin_of fs) (i + 1) = Ok it' /\ it_dec b fs it' = Ok it).
Proof. exact inc_dec_any. Qed.
Print Assumptions C47_inc_dec_any_partial.

(** C48.  Differences, order and equality of begin() + i and begin() + j follow i and j, for every string.
    begin() + length() is end() exactly if there are no empty fragments in front of the last one at the end.
    Going forward by j - i leads from one to the other; going back leads to an iterator that is equal
    exactly if no empty fragment starts at j. *)
Theorem C48_positions_any_partial : forall b fs i j, fs <> [] -> fits fs -> i <= lenN (text fs) -> j <= lenN (text fs) ->
  exists x y, next b fs (begin_of fs) i = Ok x /\ next b fs (begin_of fs) j = Ok y /\
    it_diff fs y x = (Z.of_N j - Z.of_N i)%Z /\ it_cmp x y = (i ?= j) /\ it_eq x y = (i =? j) /\
    (i = lenN (text fs) -> (x = end_of fs <-> ~ gap_at fs i)) /\
    (i <= j -> seek b fs x (Z.of_N j - Z.of_N i) = Ok y) /\
    (j < i -> exists z, seek b fs x (Z.of_N j - Z.of_N i) = Ok z /\ it_diff fs z y = 0%Z /\ (it_eq z y = true <-> ~ gap_at fs j)).
Proof. exact positions_any. Qed.
Print Assumptions C48_positions_any_partial.

(** C50.  starts_with and ends_with fail exactly if the comparison gets to an empty fragment of either string. *)
Theorem C50_starts_any_partial : forall b fs os, os <> [] -> fits fs -> text fs <> [] -> lenN (text os) <= lenN (text fs) ->
  ((exists d, reached (text os) (text fs) 0 d /\ (gap_at os d \/ gap_at fs d)) -> starts_with b fs os = abort b) /\
  ((forall d, reached (text os) (text fs) 0 d -> ~ gap_at os d /\ ~ gap_at fs d) ->
     exists r, starts_with b fs os = Ok r /\ (r = true <-> prefix_of (text os) (text fs))).
Proof. exact starts_any. Qed.
Print Assumptions C50_starts_any_partial.
Theorem C50_ends_any_partial : forall b fs os, os <> [] -> fits fs -> text fs <> [] -> lenN (text os) <= lenN (text fs) ->
  ((exists d, reached_back (text os) (text fs) d /\ (gap_at os (lenN (text os) - d) \/ gap_at fs (lenN (text fs) - d))) ->
     ends_with b fs os = UB) /\
  ((forall d, reached_back (text os) (text fs) d -> ~ gap_at os (lenN (text os) - d) /\ ~ gap_at fs (lenN (text fs) - d)) ->
     exists r, ends_with b fs os = Ok r /\ (r = true <-> suffix_of (text os) (text fs))).
Proof. exact ends_any. Qed.
Print Assumptions C50_ends_any_partial.
Theorem C50_starts_ends_longer : forall b fs os, lenN (text fs) < lenN (text os) ->
  starts_with b fs os = Ok false /\ ends_with b fs os = Ok false.
Proof. exact starts_ends_longer. Qed.
Print Assumptions C50_starts_ends_longer.
(** For one character: exactly if the first (or last) fragment is empty. *)
Theorem C50_starts_char_any_partial : forall b fs c, text fs <> [] ->
  (gap_at fs 0 -> starts_with_char b fs c = UB) /\
  (~ gap_at fs 0 -> exists r, starts_with_char b fs c = Ok r /\ (r = true <-> prefix_of [c] (text fs))).
Proof. exact starts_char_any. Qed.
Print Assumptions C50_starts_char_any_partial.
Theorem C50_ends_char_any_partial : forall b fs c, text fs <> [] ->
  (chars (last fs None) = [] -> ends_with_char b fs c = UB) /\
  (chars (last fs None) <> [] -> exists r, ends_with_char b fs c = Ok r /\ (r = true <-> suffix_of [c] (text fs))).
Proof. exact ends_char_any. Qed.
Print Assumptions C50_ends_char_any_partial.

(** C51.  find(s, pos) tries one index after the other.  It fails at the first index where the comparison gets
    to an empty fragment, or where there is none of that but the string does not occur and an empty fragment
    follows its last character; without such an index it returns the first match.  An empty fragment at
    pos itself is skipped unless pos is 0. *)
Theorem C51_find_string_any_partial : forall b fs sv pos, fits fs -> 0 < lenN sv -> pos + lenN sv <= lenN (text fs) ->
  let bad g := gap_at fs g /\ (g = pos -> pos = 0) in
  let clean j := forall d, reached sv (text fs) j d -> ~ bad (j + d) in
  let passes j := clean j /\ (occurs_at sv (text fs) j \/ ~ gap_at fs (j + lenN sv)) in
  ((forall j, tried sv (text fs) pos j -> passes j) ->
     exists r, find_sv b fs sv pos = Ok r /\ first_match (occurs_at sv (text fs)) pos r) /\
  (forall j, tried sv (text fs) pos j -> (forall i, pos <= i < j -> passes i) ->
     ((exists d, reached sv (text fs) j d /\ bad (j + d)) -> find_sv b fs sv pos = abort b) /\
     (clean j -> ~ occurs_at sv (text fs) j -> gap_at fs (j + lenN sv) -> find_sv b fs sv pos = UB)).
Proof. exact find_sv_any. Qed.
Print Assumptions C51_find_string_any_partial.
Theorem C51_find_empty_partial : forall b fs pos, fits fs -> pos < lenN (text fs) \/ pos = 0 -> find_sv b fs [] pos = Ok pos.
Proof. exact find_empty. Qed.
Print Assumptions C51_find_empty_partial.
Theorem C51_find_too_long : forall b fs sv pos, pos + lenN sv < size_mod -> lenN (text fs) < pos + lenN sv -> find_sv b fs sv pos = Ok npos.
Proof. exact find_too_long. Qed.
Print Assumptions C51_find_too_long.

(** C52.  contains(s) accordingly, and contains(fragment_string), which does not try the last index. *)
Theorem C52_contains_string_any_partial : forall b fs sv, fits fs -> sv <> [] -> lenN sv <= lenN (text fs) ->
  let clean j := forall d, reached sv (text fs) j d -> ~ gap_at fs (j + d) in
  let passes j := clean j /\ (occurs_at sv (text fs) j \/ ~ gap_at fs (j + lenN sv)) in
  ((forall j, tried sv (text fs) 0 j -> passes j) -> exists r, contains_sv b fs sv = Ok r /\ (r = true <-> occurs sv (text fs))) /\
  (forall j, tried sv (text fs) 0 j -> (forall i, i < j -> passes i) ->
     ((exists d, reached sv (text fs) j d /\ gap_at fs (j + d)) -> contains_sv b fs sv = abort b) /\
     (clean j -> ~ occurs_at sv (text fs) j -> gap_at fs (j + lenN sv) -> contains_sv b fs sv = UB)).
Proof. exact contains_sv_any. Qed.
Print Assumptions C52_contains_string_any_partial.
Theorem C52_contains_string_trivial : forall b fs sv, fits fs -> lenN sv < size_mod ->
  (sv = [] -> contains_sv b fs sv = Ok true) /\ (lenN (text fs) < lenN sv -> contains_sv b fs sv = Ok false).
Proof. exact contains_sv_trivial. Qed.
Print Assumptions C52_contains_string_trivial.
Theorem C52_contains_fragments_any_partial : forall b fs os, fits fs -> os <> [] -> lenN (text os) <= lenN (text fs) -> fs <> [] ->
  let s := text os in
  let t := text fs in
  let candidate j := j + lenN s < lenN t /\ forall i, i < j -> ~ occurs_at s t i in
  ((exists j d, candidate j /\ reached s t j d /\ (gap_at os d \/ gap_at fs (j + d))) -> contains_fs b fs os = abort b) /\
  ((forall j, candidate j -> forall d, reached s t j d -> ~ gap_at os d /\ ~ gap_at fs (j + d)) ->
     exists r, contains_fs b fs os = Ok r /\ (r = true <-> exists j, j + lenN s < lenN t /\ occurs_at s t j)).
Proof. exact contains_fs_any. Qed.
Print Assumptions C52_contains_fragments_any_partial.
Theorem C52_contains_longer : forall b fs os, lenN (text fs) < lenN (text os) -> contains_fs b fs os = Ok false.
Proof. exact contains_longer. Qed.
Print Assumptions C52_contains_longer.

(** C53.  Where substr wraps around, and copying into memory that is too small, for every string. *)
Theorem C53_substr_wraps_any_partial : forall b fs pos count, fits fs -> pos < lenN (text fs) -> count < npos ->
  size_mod <= pos + count -> substr b fs pos count = UB.
Proof. exact substr_wrap_any. Qed.
Print Assumptions C53_substr_wraps_any_partial.
Theorem C53_copy_overrun_any_partial : forall b fs dest count pos, fits fs -> pos < lenN (text fs) ->
  lenN dest < N.min count (lenN (text fs) - pos) ->
  ((exists g, pos <= g <= pos + lenN dest /\ gap_at fs g) -> copy b fs dest count pos = misuse b) /\
  ((forall g, pos <= g <= pos + lenN dest -> ~ gap_at fs g) -> copy b fs dest count pos = UB).
Proof. exact copy_over. Qed.
Print Assumptions C53_copy_overrun_any_partial.

(** "ab" + "" + "c": an empty fragment at index 2. *)
Definition holed : frags := [Some [97; 98]; Some []; Some [99]].
Lemma holed_gap g : gap_at holed g <-> g = 2.
Proof.
  split.
  - intros (k & K & Z & E). change (length holed) with 3%nat in K. destruct k as [|[|k]]; [discriminate Z|now rewrite <- E|lia].
  - intros ->. exists 1%nat. repeat split. cbn. lia.
Qed.
Example C47_holed_nonvacuous : next Release holed (begin_of holed) 1 = Ok (It 0 1) /\ it_inc Release holed (It 0 1) = Ok (It 1 0) /\
  it_dec Release holed (It 1 0) = Ok (It 0 1) /\ it_inc DebugThrow holed (It 1 0) = UB.
Proof. repeat split. Qed.
Example C48_holed_nonvacuous : next Release holed (begin_of holed) 3 = Ok (end_of holed) /\ seek Release holed (end_of holed) (-1)%Z = Ok (It 2 0) /\
  next Release holed (begin_of holed) 2 = Ok (It 1 0) /\ it_diff holed (It 2 0) (It 1 0) = 0%Z /\ it_eq (It 2 0) (It 1 0) = false.
Proof. repeat split. Qed.
Example C50_holed_nonvacuous : fits holed /\ text holed = [97; 98; 99] /\
  starts_with Release holed [Some [97; 98]] = Ok true /\ starts_with DebugThrow holed [Some [97; 98; 99]] = Terminate /\
  reached [97; 98; 99] (text holed) 0 2 /\ ~ reached [97; 99; 99] (text holed) 0 2 /\ starts_with DebugThrow holed [Some [97; 99; 99]] = Ok false /\
  ends_with DebugThrow holed [Some [99]] = Ok true /\ ends_with DebugThrow holed [Some [98; 99]] = UB /\ reached_back [98; 99] (text holed) 1.
Proof.
  repeat split; try reflexivity. intros [_ H]. discriminate H.
Qed.
Example C51_holed_nonvacuous : find_sv Release holed [97; 98] 0 = Ok 0 /\ find_sv DebugThrow holed [98] 0 = Ok 1 /\
  find_sv DebugThrow holed [99] 0 = UB /\ find_sv DebugThrow holed [98; 99] 1 = Terminate /\ find_sv DebugThrow holed [99] 2 = Ok 2 /\
  tried [98; 99] (text holed) 1 1 /\ reached [98; 99] (text holed) 1 1.
Proof. repeat split; try reflexivity; try (cbn; lia). Qed.
Example C52_holed_nonvacuous : contains_sv Release holed [98] = Ok true /\ contains_sv Release holed [98; 99] = UB /\
  contains_fs Release holed [Some [97]] = Ok true /\ contains_fs Release holed [Some [98; 99]] = Ok false /\
  contains_fs DebugAbort holed [Some [97]; Some []; Some [98]] = Terminate.
Proof. repeat split. Qed.
Example C53_holed_nonvacuous : substr DebugThrow holed 2 18446744073709551614 = UB /\ size_mod <= 2 + 18446744073709551614 /\
  copy DebugThrow holed [0] 2 0 = UB /\ copy DebugThrow holed [0] 2 1 = Throw logic_error.
Proof. repeat split; try reflexivity; try (cbn; lia); try discriminate. Qed.
