(** The statements of C46-C53 and C77, proved. *)
From Coq Require Import List. Import ListNotations.
From Verif Require Import Base BaseFacts String_Model String_Spec String_Proofs Frag_Model Frag_Spec Frag_Proofs FragOps_Proofs.

Lemma concat_texts e t : means e t ->
  exists fs, eval e = Ok fs /\ to_str fs = Ok t /\ length_of fs = lenN t /\ (empty fs = true <-> t = []).
Proof.
  intros M. destruct (means_eval e t M) as (fs & E & T & F & _). exists fs. split; [assumption|]. unfold to_str, empty.
  rewrite append_fragments_ok by assumption. rewrite T, length_of_text, T. repeat split; auto.
  - rewrite N.eqb_eq. unfold lenN. destruct t; [reflexivity|cbn [length]; lia].
  - intros ->. reflexivity.
Qed.
Lemma c_text_undefined mem : c_text mem = UB <-> ~ In 0 mem.
Proof.
  induction mem as [|c r IH]; cbn [c_text In]; [tauto|]. destruct (N.eqb_spec c 0) as [->|NE].
  - split; [discriminate|]. intros H. destruct H. now left.
  - transitivity (c_text r = UB); [destruct (c_text r); cbn [obind]; split; congruence|]. rewrite IH. split; [intros H [E|I]; [now apply NE|now apply H]|intros H I; apply H; now right].
Qed.
Lemma pointer_undefined l p :
  (from_ptr p = UB <-> forall mem, p = Some mem -> ~ In 0 mem) /\ (plus_ptr l p = UB <-> forall mem, p = Some mem -> ~ In 0 mem).
Proof.
  assert (A : from_ptr p = UB <-> forall mem, p = Some mem -> ~ In 0 mem).
  { destruct p as [mem|]; cbn [from_ptr].
    - transitivity (c_text mem = UB); [destruct (c_text mem); cbn [obind]; split; intros E; (discriminate E || reflexivity || idtac)|]. rewrite c_text_undefined. split.
      + intros H m E. now injection E as <-.
      + intros H. now apply H.
    - split; [intros _ m E; discriminate|reflexivity]. }
  split; [exact A|]. rewrite <- A. unfold plus_ptr. destruct (from_ptr p); cbn [obind]; split; congruence.
Qed.
Lemma plus_shares a b : plus a b = a ++ b /\ length_of (plus a b) = length_of a + length_of b.
Proof. split; [reflexivity|]. unfold plus. now rewrite !length_of_text, text_app, lenN_app. Qed.
Lemma plus_assoc_all a b c : plus (plus a b) c = plus a (plus b c).
Proof. unfold plus. now rewrite app_assoc. Qed.
Lemma to_str_default : exists e fs, eval e = Ok fs /\ length_of fs = 0 /\ to_str fs = UB.
Proof. exists (Default 1), [None]. repeat split. Qed.
Lemma to_str_no_default fs : In None fs -> to_str fs = UB.
Proof.
  intros H. unfold to_str. generalize (@nil N). induction fs as [|f fs IH]; intros out; [destruct H|].
  cbn [append_fragments]. destruct f as [t|]; [|reflexivity]. destruct H as [H|H]; [discriminate|].
  destruct (c_text (t ++ [0])) eqn:E; cbn [obind]; try reflexivity; [now apply IH| | |].
  all: exfalso; clear - E; revert E; induction t as [|c t IH]; cbn; try discriminate;
    destruct (c =? 0); try discriminate; destruct (c_text (t ++ [0])); cbn; try discriminate; auto.
Qed.

Lemma iterate_forwards_backwards b fs : sane fs -> walk b fs = Ok (text fs) /\ rwalk b fs = Ok (rev (text fs)).
Proof. intros S. split; [now apply walk_ok|now apply rwalk_ok]. Qed.
Lemma inc_dec b fs i : sane fs -> fits fs -> i < lenN (text fs) ->
  exists it it', next b fs (begin_of fs) i = Ok it /\ next b fs (begin_of fs) (i + 1) = Ok it' /\
    it_inc b fs it = Ok it' /\ it_dec b fs it' = Ok it.
Proof.
  intros S F L.
  destruct (next_ok b fs 0 _ i S (spot_begin fs S) ltac:(lia) F) as (it & E & P). rewrite N.add_0_l in P.
  destruct (next_ok b fs 0 _ (i + 1) S (spot_begin fs S) ltac:(lia) F) as (it' & E' & P'). rewrite N.add_0_l in P'.
  destruct (spot_inc b fs i it S P L) as (x & X & PX). destruct (spot_dec b fs i it' S P') as (y & Y & PY).
  rewrite (spot_unique fs _ x it' PX P') in X. rewrite (spot_unique fs _ y it PY P) in Y. exists it, it'. auto.
Qed.
Lemma iterate_refuted : exists fs, eval (PlusPtr (PlusPtr (Lit [97; 0]) [0]) [98; 0]) = Ok fs /\ to_str fs = Ok [97; 98] /\
  walk Release fs = UB /\ walk DebugAbort fs = Terminate /\ walk DebugThrow fs = Throw logic_error.
Proof. exists [Some [97]; Some []; Some [98]]. repeat split. Qed.

Lemma begin_plus b fs i : sane fs -> fits fs -> i <= lenN (text fs) ->
  exists it, next b fs (begin_of fs) i = Ok it /\
    (forall c, nth_error (text fs) (N.to_nat i) = Some c -> it_deref b fs it = Ok c) /\
    (i = lenN (text fs) -> it = end_of fs).
Proof.
  intros S F L. destruct (next_ok b fs 0 _ i S (spot_begin fs S) ltac:(lia) F) as (it & E & P). rewrite N.add_0_l in P.
  exists it. split; [assumption|]. split.
  - intros c Hc. now apply (spot_deref b fs i).
  - intros ->. apply (spot_unique fs _ _ _ P). apply spot_end, S.
Qed.
Lemma positions b fs i j : sane fs -> fits fs -> i <= lenN (text fs) -> j <= lenN (text fs) ->
  exists x y, next b fs (begin_of fs) i = Ok x /\ next b fs (begin_of fs) j = Ok y /\
    it_diff fs y x = (Z.of_N j - Z.of_N i)%Z /\ it_cmp x y = (i ?= j) /\ it_eq x y = (i =? j) /\
    seek b fs x (Z.of_N j - Z.of_N i) = Ok y /\ seek_minus b fs x (Z.of_N i - Z.of_N j) = Ok y.
Proof.
  intros S F L M. destruct (next_ok b fs 0 _ i S (spot_begin fs S) ltac:(lia) F) as (x & E & P). rewrite N.add_0_l in P.
  destruct (next_ok b fs 0 _ j S (spot_begin fs S) ltac:(lia) F) as (y & E' & Q). rewrite N.add_0_l in Q.
  exists x, y. split; [assumption|]. split; [assumption|].
  split; [apply diff_ok; now apply spot_wspot|]. split; [now apply (spot_cmp fs)|]. split; [now apply (spot_eq fs)|].
  assert (K : seek b fs x (Z.of_N j - Z.of_N i) = Ok y).
  { destruct (seek_ok b fs i x (Z.of_N j - Z.of_N i) S P ltac:(lia) F) as (z & -> & Z). f_equal. apply (spot_unique fs j); auto.
    now replace (Z.to_N (Z.of_N i + (Z.of_N j - Z.of_N i))) with j in Z by lia. }
  split; [assumption|]. unfold seek_minus. unfold fits in F. change (2 ^ 63) with 9223372036854775808 in F.
  change (- 2 ^ 63)%Z with (-9223372036854775808)%Z. rewrite (proj2 (Z.eqb_neq _ _)) by lia.
  now replace (- (Z.of_N i - Z.of_N j))%Z with (Z.of_N j - Z.of_N i)%Z by lia.
Qed.
Lemma begin_plus_past b fs n : fs <> [] -> lenN (text fs) < n ->
  match b with
  | Release => forall fuel, seek_forward fuel b fs (begin_of fs) n = Diverge
  | DebugAbort => seek_forward (length fs + 2) b fs (begin_of fs) n = Terminate
  | DebugThrow => seek_forward (length fs + 2) b fs (begin_of fs) n = Throw logic_error
  end.
Proof.
  intros NE L. pose proof (wspot_begin fs NE) as W. destruct b.
  - intros fuel. apply (seek_forward_past fs fuel 0); auto.
  - apply (seek_forward_past_debug DebugAbort fs _ 0 _ n); auto; [discriminate|cbn [begin_of it_frag]; lia].
  - apply (seek_forward_past_debug DebugThrow fs _ 0 _ n); auto; [discriminate|cbn [begin_of it_frag]; lia].
Qed.
Lemma begin_plus_refuted : exists fs it, to_str fs = Ok [97; 98] /\ next Release fs (begin_of fs) 1 = Ok it /\ it_deref Release fs it = UB.
Proof. exists [Some [97]; Some []; Some [98]], (It 1 0). repeat split. Qed.

Lemma at_throws b fs i : at_pos b fs i = Throw out_of_range <-> lenN (text fs) <= i.
Proof.
  unfold at_pos. rewrite length_of_text. destruct (N.leb_spec (lenN (text fs)) i); [tauto|]. split; [|lia].
  unfold subscript. destruct (let! it := next b fs (begin_of fs) i in it_deref b fs it); discriminate.
Qed.
Lemma front_back b fs s c d : sane fs -> chars (last fs None) <> [] -> text fs = c :: s -> text fs = removelast (text fs) ++ [d] ->
  front b fs = Ok c /\ back b fs = Ok d.
Proof.
  intros S NE E E'. split; [eapply front_ok; eauto|]. eapply back_ok; [|exact E'].
  unfold fchars. replace (nth (length fs - 1) fs None) with (last fs None); [assumption|].
  clear. induction fs as [|f [|g r] IH]; [reflexivity|reflexivity|].
  change (last (f :: g :: r) None) with (last (g :: r) (@None (list N))). rewrite IH. cbn [length nth Nat.sub]. now rewrite !Nat.sub_0_r.
Qed.
Lemma access_refuted : exists fs1 fs2 fs3,
  to_str fs1 = Ok [97; 98] /\ at_pos Release fs1 1 = UB /\
  to_str fs2 = Ok [97] /\ front Release fs2 = UB /\
  to_str fs3 = Ok [97] /\ back Release fs3 = UB.
Proof. exists [Some [97]; Some []; Some [98]], [Some []; Some [97]], [Some [97]; Some []]. repeat split. Qed.

Lemma compare_spec b ct fs os : sane fs -> sane os -> Forall (code_ok ct) (text fs) -> Forall (code_ok ct) (text os) ->
  exists r, compare_fs b ct fs os = Ok r /\ (r = 0%Z <-> text fs = text os) /\
    ((r < 0)%Z <-> lex_less (fun x y => (char_value ct x < char_value ct y)%Z) (text fs) (text os)) /\
    ((0 < r)%Z <-> lex_less (fun x y => (char_value ct x < char_value ct y)%Z) (text os) (text fs)).
Proof.
  intros S T C D. exists (cmp_text ct (text fs) (text os)). split; [now apply compare_ok|].
  split; [now apply cmp_text_eq|]. change (fun x y => (char_value ct x < char_value ct y)%Z) with (vlt ct).
  rewrite <- cmp_text_lt, <- cmp_text_gt by assumption. pose proof (cmp_text_range ct (text fs) (text os)). lia.
Qed.
Lemma compare_sv_spec b ct fs s : sane fs -> Forall (code_ok ct) (text fs) -> Forall (code_ok ct) s ->
  exists r, compare_sv b ct fs s = Ok r /\ (r = 0%Z <-> text fs = s) /\
    ((r < 0)%Z <-> lex_less (fun x y => (char_value ct x < char_value ct y)%Z) (text fs) s) /\
    ((0 < r)%Z <-> lex_less (fun x y => (char_value ct x < char_value ct y)%Z) s (text fs)).
Proof.
  intros S C D. pose proof (compare_spec b ct fs [Some s] S (sane_one s) C) as H. rewrite text_one in H. exact (H D).
Qed.
Lemma compare_refuted : exists fs os, to_str fs = Ok [200] /\ to_str os = Ok [97] /\
  compare_fs Release (CChar true) fs os = Ok (-1)%Z /\ lex_less N.lt [97] [200].
Proof. exists [Some [200]], [Some [97]]. repeat split. exists [], [97], [200]. repeat split. Qed.
Lemma compare_empty_refuted : exists fs os, to_str fs = Ok [97; 98] /\ to_str os = Ok [97; 98] /\
  compare_fs Release (CChar false) fs os = UB.
Proof. exists [Some [97]; Some []; Some [98]], [Some [97; 98]]. repeat split. Qed.
Lemma starts_ends_refuted : exists fs os, to_str fs = Ok [] /\ to_str os = Ok [] /\
  starts_with Release fs os = Ok false /\ ends_with Release fs os = Ok false.
Proof. exists [Some []], [Some []]. repeat split. Qed.
Lemma starts_ends b fs os : sane fs -> sane os -> fits fs -> text fs <> [] ->
  exists r r', starts_with b fs os = Ok r /\ (r = true <-> prefix_of (text os) (text fs)) /\
    ends_with b fs os = Ok r' /\ (r' = true <-> suffix_of (text os) (text fs)).
Proof.
  intros S T F NE. assert (L : 0 < lenN (text fs)) by (destruct (text fs); [congruence|rewrite lenN_cons; lia]).
  destruct (starts_with_ok b fs os S T F L) as (r & A & B). destruct (ends_with_ok b fs os S T F L) as (r' & A' & B').
  exists r, r'. auto.
Qed.
Lemma starts_ends_empty_this b fs os : text fs = [] -> starts_with b fs os = Ok false /\ ends_with b fs os = Ok false.
Proof. intros E. unfold starts_with, ends_with. rewrite !length_of_text, E. split; reflexivity. Qed.
Lemma starts_ends_char b fs c : sane fs -> (text fs <> [] -> chars (last fs None) <> []) ->
  exists r r', starts_with_char b fs c = Ok r /\ (r = true <-> prefix_of [c] (text fs)) /\
    ends_with_char b fs c = Ok r' /\ (r' = true <-> suffix_of [c] (text fs)).
Proof.
  intros S NE. unfold starts_with_char, ends_with_char, empty. rewrite length_of_text. destruct (text fs) as [|x t] eqn:E.
  - change (lenN [] =? 0) with true. exists false, false. cbn [noexcept]. repeat split; try discriminate.
    + intros [r X]. discriminate.
    + intros [r X]. now destruct r.
  - rewrite (proj2 (N.eqb_neq _ 0)) by (rewrite lenN_cons; lia).
    destruct (@exists_last _ (x :: t) ltac:(discriminate)) as (q & d & X).
    destruct (front_back b fs t x d S (NE ltac:(discriminate)) E) as [A B].
    { rewrite E, X. now rewrite removelast_last. }
    rewrite A, B. cbn [obind noexcept]. exists (x =? c), (d =? c). rewrite !N.eqb_eq. repeat split.
    + intros ->. now exists t.
    + intros [r Y]. now injection Y.
    + intros ->. exists q. now rewrite X.
    + intros [r Y]. rewrite X in Y. apply app_inj_tail in Y. tauto.
Qed.
Lemma ends_char_refuted : exists fs, to_str fs = Ok [97] /\ ends_with_char Release fs 97 = UB.
Proof. exists [Some [97]; Some []]. repeat split. Qed.

Lemma find_char_refuted : exists fs, to_str fs = Ok [97; 98; 97] /\ find_char_fs fs 97 1 = Ok 0.
Proof. exists [Some [97; 98; 97]]. repeat split. Qed.
Lemma find_char_spec' fs c pos : fits fs -> pos < lenN (text fs) -> (pos = 0 -> sane fs) ->
  exists start r, find_char_fs fs c pos = Ok r /\ fragment_start fs pos start /\
    first_match (fun i => nth_error (text fs) (N.to_nat i) = Some c) start r.
Proof. exact (find_char_ok fs c pos). Qed.
Lemma find_char_first fs c : fits fs ->
  exists r, find_char_fs fs c 0 = Ok r /\ first_match (fun i => nth_error (text fs) (N.to_nat i) = Some c) 0 r.
Proof.
  intros F. destruct (N.eq_dec (lenN (text fs)) 0) as [E|E]; [|apply find_char_start; [assumption|lia]].
  exists npos. unfold find_char_fs. rewrite length_of_text, E. split; [reflexivity|]. right. split; [reflexivity|]. intros j _.
  apply lenN_0 in E. rewrite E. now destruct (N.to_nat j).
Qed.
Lemma find_char_past fs c pos : lenN (text fs) <= pos -> find_char_fs fs c pos = Ok npos.
Proof. intros L. unfold find_char_fs. rewrite length_of_text. now rewrite (proj2 (N.leb_le _ _) L). Qed.
Lemma find_sv_refuted : exists fs1 fs2,
  to_str fs1 = Ok [97; 98] /\ (forall b, find_sv b fs1 [] 2 = UB) /\ occurs_at [] [97; 98] 2 /\
  to_str fs2 = Ok [97; 98] /\ (forall b, find_sv b fs2 [97; 98] npos = UB) /\ ~ exists i, npos <= i /\ occurs_at [97; 98] [97; 98] i.
Proof.
  exists [Some [97; 98]], [Some [97; 98]]. split; [reflexivity|]. split; [intros b; reflexivity|].
  split; [exists [97; 98], []; auto|]. split; [reflexivity|]. split; [intros b; reflexivity|].
  intros (i & L & O). apply occurs_len in O. change (lenN [97; 98]) with 2 in O. rewrite npos_val in L. lia.
Qed.
Lemma contains_fs_refuted : exists fs, to_str fs = Ok [97; 98] /\ contains_fs Release fs fs = Ok false /\ occurs [97; 98] [97; 98].
Proof. exists [Some [97; 98]]. repeat split. exists 0, [], []. repeat split. Qed.
Lemma contains_sv_empty_refuted : exists fs, to_str fs = Ok [97; 98] /\ contains_sv Release fs [98] = UB.
Proof. exists [Some [97]; Some []; Some [98]]. repeat split. Qed.

Lemma substr_throws b fs pos count : lenN (text fs) <= pos -> substr b fs pos count = Throw out_of_range.
Proof. intros L. unfold substr. rewrite length_of_text. now rewrite (proj2 (N.leb_le _ _) L). Qed.
Lemma copy_throws b fs dest count pos : lenN (text fs) <= pos -> copy b fs dest count pos = Throw out_of_range.
Proof. intros L. unfold copy. rewrite length_of_text. now rewrite (proj2 (N.leb_le _ _) L). Qed.
Lemma substr_refuted : exists fs, to_str fs = Ok [97; 98; 99] /\ (forall b, substr b fs 2 (size_mod - 2) = UB) /\
  slice [97; 98; 99] 2 (size_mod - 2) = [99].
Proof.
  exists [Some [97; 98; 99]]. split; [reflexivity|]. split; [intros b; apply substr_wrap|reflexivity].
  - split; [discriminate|constructor].
  - reflexivity.
  - reflexivity.
  - reflexivity.
  - discriminate.
Qed.
Lemma print_refuted : exists fs, to_str fs = Ok [97; 98; 99] /\ print 3 32 fs = [32; 32; 97; 98; 99] /\ insert_text 3 32 [97; 98; 99] = [97; 98; 99].
Proof. exists [Some [97]; Some [98; 99]]. repeat split. Qed.
Lemma print_exact width fill f fs : print width fill (f :: fs) = repeat fill (N.to_nat (width - lenN (chars f))) ++ text (f :: fs).
Proof. cbn [print]. rewrite print_plain. unfold insert_text. now rewrite text_cons, app_assoc. Qed.
