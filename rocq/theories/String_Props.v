(** Theorems C40-C45: split, join, trim, strip. *)
From Verif Require Import Base String_Model String_Spec String_Proofs.

Definition ample : nat -> bool := fun _ => true.

(** C40. *)
Theorem C40_join_after_split : forall max_size s d ts, lenN s <= max_size -> max_size < size_mod ->
  split (fun _ => true) s d keep_empty = Ok ts -> join max_size ts d = Ok s.
Proof. exact split_then_join. Qed.
Print Assumptions C40_join_after_split.
Theorem C40_split_after_join : forall max_size ts d s, ts <> [] -> Forall (fun t => ~ In d t) ts ->
  joined_length ts <= max_size -> max_size < size_mod -> join max_size ts d = Ok s ->
  split (fun _ => true) s d keep_empty = Ok ts.
Proof. exact join_then_split. Qed.
Print Assumptions C40_split_after_join.
Example C40_nonvacuous :
  split ample [44; 97; 44; 44; 98; 44] 44 keep_empty = Ok [[]; [97]; []; [98]; []] /\
  join 1000 [[]; [97]; []; [98]; []] 44 = Ok [44; 97; 44; 44; 98; 44] /\
  Forall (fun t => ~ In 44 t) [[]; [97]; []; [98]; []].
Proof. repeat split. repeat constructor; cbn; intuition discriminate. Qed.

(** C41. *)
Theorem C41_drop_empty : forall s d, exists ts,
  split (fun _ => true) s d keep_empty = Ok ts /\ split (fun _ => true) s d drop_empty = Ok (filter not_empty ts).
Proof. exact split_drop_keep. Qed.
Print Assumptions C41_drop_empty.
Example C41_nonvacuous : split ample [44; 97; 44; 44; 98; 44] 44 drop_empty = Ok [[97]; [98]].
Proof. reflexivity. Qed.

(** C42.  [alloc] is the memory supply: running out inside the noexcept function
    terminates, it never throws. *)
Theorem C42_split_total : forall alloc s d b,
  (exists ts, split (fun _ => true) s d b = Ok ts /\ Forall (fun t => ~ In d t) ts /\
     (b = keep_empty -> lenN ts = count_char d s + 1) /\
     split alloc s d b = (if forallb alloc (seq 0 (length ts)) then Ok ts else Terminate)).
Proof. exact split_total. Qed.
Print Assumptions C42_split_total.
Theorem C42_views : forall alloc s d b vs, split_to alloc s d b = Ok vs ->
  views_of s 0 vs /\ split alloc s d b = Ok (map v_chars vs).
Proof. exact split_views. Qed.
Print Assumptions C42_views.
Theorem C42_pointers : forall alloc d b t rest, ~ In 0 t ->
  split_to_ptr alloc None d b = Ok [] /\ split_ptr alloc None = Ok [] /\
  split_to_ptr alloc (Some (t ++ 0 :: rest)) d b = split_to alloc t d b /\
  split_ptr alloc (Some (t ++ 0 :: rest)) = split alloc t 32 drop_empty.
Proof. exact split_pointers. Qed.
Print Assumptions C42_pointers.
Example C42_nonvacuous :
  split_to ample [97; 44; 44; 98] 44 drop_empty = Ok [View 0 [97]; View 3 [98]] /\
  split (fun k => Nat.eqb k 0) [97; 44; 98] 44 drop_empty = Terminate /\
  split_ptr ample (Some [97; 32; 98; 0; 7]) = Ok [[97]; [98]] /\ ~ In 0 [97; 32; 98].
Proof. repeat split. cbn. intuition discriminate. Qed.

(** C43.  False for signed char: a character from 128 to 254 is negative, which
    isspace is not defined for. *)
Theorem C43_every_string_refuted : forall white, exists s, Forall (fun c => c < 256) s /\
  trim_left (CChar true) white s = UB /\ trim_right (CChar true) white s = UB /\ strip (CChar true) white s = UB.
Proof. exact trim_refuted. Qed.
Print Assumptions C43_every_string_refuted.
(** Exact behaviour, and exactly which texts are dangerous. *)
Theorem C43_trim_partial : forall ct white s,
  match trim_left ct white s with
  | Ok t => trimmed_left ct white s t /\ ~ untestable_left ct white s /\ trim_left ct white t = Ok t
  | UB => untestable_left ct white s | _ => False end /\
  match trim_right ct white s with
  | Ok t => trimmed_right ct white s t /\ ~ untestable_right ct white s /\ trim_right ct white t = Ok t
  | UB => untestable_right ct white s | _ => False end.
Proof. exact trim_exact. Qed.
Print Assumptions C43_trim_partial.
(** In particular defined for ASCII text, unsigned char and wchar_t. *)
Theorem C43_trim_defined_partial : forall ct white s, Forall (testable ct) s ->
  (exists t, trim_left ct white s = Ok t /\ trimmed_left ct white s t) /\
  (exists t, trim_right ct white s = Ok t /\ trimmed_right ct white s t).
Proof. intros ct white s F. split; [now apply trim_left_ok|now apply trim_right_ok]. Qed.
Print Assumptions C43_trim_defined_partial.
Theorem C43_pointers_partial : forall ct white t rest, ~ In 0 t ->
  trim_left_ptr ct white (t ++ 0 :: rest) = trim_left ct white t /\
  trim_right_ptr ct white (t ++ 0 :: rest) = trim_right ct white t /\
  strip_ptr ct white (t ++ 0 :: rest) = strip ct white t.
Proof. exact trim_pointers. Qed.
Print Assumptions C43_pointers_partial.
Definition c_locale (c : N) : bool := (c =? 32) || ((9 <=? c) && (c <=? 13)).
Example C43_nonvacuous : Forall (testable (CChar true)) [32; 97; 32; 98; 10] /\
  trim_left (CChar true) c_locale [32; 97; 32; 98; 10] = Ok [97; 32; 98; 10] /\
  trim_right (CChar true) c_locale [32; 97; 32; 98; 10] = Ok [32; 97; 32; 98].
Proof. split; [repeat constructor|]. split; reflexivity. Qed.

(** C44. *)
Theorem C44_strip_partial : forall ct white s,
  match strip ct white s with
  | Ok t => stripped ct white s t /\ (forall u, stripped ct white s u -> u = t)
  | UB => untestable_left ct white s \/ untestable_right ct white s
  | _ => False
  end.
Proof. exact strip_exact. Qed.
Print Assumptions C44_strip_partial.
Theorem C44_strip_undefined_partial : forall ct white s,
  strip ct white s = UB <-> untestable_left ct white s \/ untestable_right ct white s.
Proof. exact strip_ub_iff. Qed.
Print Assumptions C44_strip_undefined_partial.
Theorem C44_strip_defined_partial : forall ct white s, Forall (testable ct) s ->
  exists t, strip ct white s = Ok t /\ stripped ct white s t /\
    (let! u := trim_left ct white s in trim_right ct white u) = Ok t /\ strip ct white t = Ok t.
Proof. exact strip_ok. Qed.
Print Assumptions C44_strip_defined_partial.
(** The order of the two trims does not matter and strip is idempotent, for every string
    and including when the call is undefined. *)
Theorem C44_laws_partial : forall ct white s,
  (let! u := trim_left ct white s in trim_right ct white u) = strip ct white s /\
  (let! t := trim_right ct white s in trim_left ct white t) = strip ct white s /\
  (let! t := strip ct white s in strip ct white t) = strip ct white s.
Proof. exact strip_laws. Qed.
Print Assumptions C44_laws_partial.
(** Like trim (C43), strip is undefined for some narrow strings where char is signed. *)
Theorem C44_every_string_refuted : forall white, exists s, Forall (fun c => c < 256) s /\ strip (CChar true) white s = UB.
Proof. exact strip_refuted. Qed.
Print Assumptions C44_every_string_refuted.
Example C44_nonvacuous : Forall (testable CWide) [32; 0x4E2D; 32; 98; 10] /\
  strip CWide c_locale [32; 0x4E2D; 32; 98; 10] = Ok [0x4E2D; 32; 98].
Proof. split; [repeat constructor|reflexivity]. Qed.

(** C45.  The total size is computed in size_t: if it wraps, join writes outside
    the string.  Strings that all exist in memory at once cannot make it wrap. *)
Theorem C45_join_partial : forall max_size ts d, max_size < size_mod ->
  (joined_length ts <= max_size -> join max_size ts d = Ok (joined d ts) /\ lenN (joined d ts) = joined_length ts) /\
  ((2 <= length ts)%nat -> max_size < joined_length ts < size_mod -> join max_size ts d = Throw length_error).
Proof. exact join_exact. Qed.
Print Assumptions C45_join_partial.
Theorem C45_size_wraps_refuted : forall max_size d, 2 ^ 62 <= max_size ->
  exists ts, Forall (fun t => lenN t <= max_size) ts /\ join max_size ts d = UB.
Proof. exact join_wraps_witness. Qed.
Print Assumptions C45_size_wraps_refuted.
Theorem C45_wrapped_size_partial : forall max_size ts d, (2 <= length ts)%nat -> size_mod <= joined_length ts ->
  join max_size ts d = if joined_length ts mod size_mod <=? max_size then UB else Throw length_error.
Proof. exact join_too_long. Qed.
Print Assumptions C45_wrapped_size_partial.
Example C45_nonvacuous : joined_length [[97]; []; [98; 99]] = 5 /\
  join 5 [[97]; []; [98; 99]] 44 = Ok [97; 44; 44; 98; 99] /\ join 4 [[97]; []; [98; 99]] 44 = Throw length_error.
Proof. repeat split. Qed.
