(** C47-C50, C53: fragment strings with empty fragments. *)
From Coq Require Import List. Import ListNotations.
From Verif Require Import Base String_Model Frag_Model Frag_Spec FragGap_Spec FragGap_Proofs.

(** The hypothesis of the theorems without empty fragments, in terms of gaps. *)
Theorem C47_sane_is_without_gaps : forall fs, sane fs <-> fs <> [] /\ forall i, ~ gap_at fs i.
Proof. exact sane_no_gap. Qed.
Print Assumptions C47_sane_is_without_gaps.
(** C47.  Iterating backwards over any other string is undefined in every build: no assertion stops it. *)
Theorem C47_reverse_empty_fragment_partial : forall b fs, fs <> [] -> ~ sane fs -> rwalk b fs = UB.
Proof. exact rwalk_not_sane. Qed.
Print Assumptions C47_reverse_empty_fragment_partial.

(** C48.  begin() + i works for every string; it can be dereferenced exactly if no empty fragment starts at i. *)
Theorem C48_begin_plus_any_partial : forall b fs i, fits fs -> i < lenN (text fs) ->
  exists it, next b fs (begin_of fs) i = Ok it /\
    (gap_at fs i -> it_deref b fs it = misuse b) /\
    (~ gap_at fs i -> exists c, nth_error (text fs) (N.to_nat i) = Some c /\ it_deref b fs it = Ok c).
Proof. exact begin_plus_any. Qed.
Print Assumptions C48_begin_plus_any_partial.

(** C49.  at and operator[] give character i, except where an empty fragment starts: there they end the
    program in a debug build, and are undefined in a release build. *)
Theorem C49_at_any_partial : forall b fs i, fits fs -> i < lenN (text fs) ->
  (gap_at fs i -> at_pos b fs i = match b with Release => UB | _ => Terminate end /\ subscript b fs i = at_pos b fs i) /\
  (~ gap_at fs i -> exists c, nth_error (text fs) (N.to_nat i) = Some c /\ at_pos b fs i = Ok c /\ subscript b fs i = Ok c).
Proof. exact at_any. Qed.
Print Assumptions C49_at_any_partial.
Theorem C49_front_any_partial : forall b fs, text fs <> [] ->
  (gap_at fs 0 -> front b fs = UB) /\ (~ gap_at fs 0 -> exists c s, text fs = c :: s /\ front b fs = Ok c).
Proof. exact front_any. Qed.
Print Assumptions C49_front_any_partial.
Theorem C49_back_any_partial : forall b fs, text fs <> [] ->
  (chars (last fs None) = [] -> back b fs = UB) /\
  (chars (last fs None) <> [] -> exists s c, text fs = s ++ [c] /\ back b fs = Ok c).
Proof. exact back_any. Qed.
Print Assumptions C49_back_any_partial.

(** C50.  What compare returns for every pair of strings, by where the texts part.  Two strings of the same
    text compare as different if one of them has empty fragments at the end. *)
Theorem C50_compare_any_partial : forall b ct fs os p, fs <> [] -> os <> [] -> part_at (text fs) (text os) p ->
  ((exists g, g < p /\ (gap_at fs g \/ gap_at os g)) -> compare_fs b ct fs os = misuse b) /\
  ((forall g, g < p -> ~ gap_at fs g /\ ~ gap_at os g) ->
     (ends_at fs p -> ends_at os p -> compare_fs b ct fs os = Ok 0%Z) /\
     (~ ends_at fs p -> ends_at os p -> compare_fs b ct fs os = Ok 1%Z) /\
     (ends_at fs p -> ~ ends_at os p -> compare_fs b ct fs os = Ok (-1)%Z) /\
     (~ ends_at fs p -> ~ ends_at os p ->
        (gap_at fs p \/ gap_at os p -> compare_fs b ct fs os = misuse b) /\
        (~ gap_at fs p -> ~ gap_at os p -> exists x y,
           nth_error (text fs) (N.to_nat p) = Some x /\ nth_error (text os) (N.to_nat p) = Some y /\ x <> y /\
           (code_ok ct x -> code_ok ct y ->
            compare_fs b ct fs os = Ok (if (code_value ct x <? code_value ct y)%Z then (-1)%Z else 1%Z))))).
Proof. exact compare_any. Qed.
Print Assumptions C50_compare_any_partial.
Theorem C50_trailing_empty_refuted : exists fs os,
  eval (PlusPtr (PlusPtr (Lit [97; 0]) [0]) [0]) = Ok fs /\ eval (Lit [97; 0]) = Ok os /\
  to_str fs = Ok [97] /\ to_str os = Ok [97] /\
  forall b ct, compare_fs b ct fs os = Ok 1%Z /\ compare_fs b ct os fs = Ok (-1)%Z.
Proof. exact trailing_empty_compare. Qed.
Print Assumptions C50_trailing_empty_refuted.

(** C53.  substr and copy fail exactly if they pass an empty fragment; one at the end counts if the
    characters run up to the end. *)
Theorem C53_substr_any_partial : forall b fs pos count, fits fs -> pos < lenN (text fs) -> pos + count < size_mod \/ count = npos ->
  let crossed g := pos <= g /\ gap_at fs g /\ (g < pos + count \/ lenN (text fs) <= pos + count) in
  ((exists g, crossed g) -> substr b fs pos count = misuse b) /\
  ((forall g, ~ crossed g) -> substr b fs pos count = Ok (slice (text fs) pos count)).
Proof. exact substr_any. Qed.
Print Assumptions C53_substr_any_partial.
Theorem C53_copy_any_partial : forall b fs dest count pos, fits fs -> pos < lenN (text fs) ->
  let n := N.min count (lenN (text fs) - pos) in n <= lenN dest ->
  ((exists g, pos <= g < pos + n /\ gap_at fs g) -> copy b fs dest count pos = misuse b) /\
  ((forall g, pos <= g < pos + n -> ~ gap_at fs g) ->
     copy b fs dest count pos = Ok (slice (text fs) pos count ++ dropN n dest, n)).
Proof. exact copy_any. Qed.
Print Assumptions C53_copy_any_partial.

(** "ab" + "" + "c": an empty fragment at index 2, none elsewhere. *)
Definition gapped : frags := [Some [97; 98]; Some []; Some [99]].
Example C47_gap_nonvacuous : gap_at gapped 2 /\ ~ gap_at gapped 1 /\ rwalk DebugThrow gapped = UB.
Proof.
  split; [exists 1%nat; repeat split; cbn; lia|]. split; [|reflexivity].
  intros ([|[|k]] & K & Z & L); [discriminate Z|discriminate L|cbn in K; lia].
Qed.
Example C48_gap_nonvacuous : next DebugThrow gapped (begin_of gapped) 2 = Ok (It 1 0) /\
  it_deref DebugThrow gapped (It 1 0) = Throw logic_error /\
  next DebugThrow gapped (begin_of gapped) 1 = Ok (It 0 1) /\ it_deref DebugThrow gapped (It 0 1) = Ok 98.
Proof. repeat split. Qed.
Example C49_gap_nonvacuous : at_pos Release gapped 1 = Ok 98 /\ at_pos Release gapped 2 = UB /\ at_pos DebugThrow gapped 2 = Terminate.
Proof. repeat split. Qed.
Example C50_gap_nonvacuous : part_at (text gapped) [97; 98; 100] 2 /\ part_at (text gapped) [97; 100] 1 /\
  compare_fs Release (CChar false) gapped [Some [97; 98; 100]] = UB /\
  compare_fs Release (CChar false) gapped [Some [97; 100]] = Ok (-1)%Z.
Proof. repeat split; cbn; try lia; right; right; discriminate. Qed.
Example C53_gap_nonvacuous : substr Release gapped 0 2 = Ok [97; 98] /\ substr Release gapped 0 3 = UB /\
  substr Release gapped 1 1 = Ok [98] /\ copy DebugAbort gapped [0; 0] 2 0 = Ok ([97; 98], 2) /\
  copy DebugAbort gapped [0; 0] 2 1 = Terminate.
Proof. repeat split. Qed.
