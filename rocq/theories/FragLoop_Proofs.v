(** Proofs about repeated searches. *)
From Coq Require Import List Sorted Lia NArith. Import ListNotations.
From Verif Require Import Base BaseFacts String_Model String_Spec String_Proofs Frag_Model Frag_Spec Frag_Proofs FragOps_Proofs Frag_PropLemmas FragLoop_Spec.
Local Open Scope N_scope.

Lemma occurs_at_bound sv s i : occurs_at sv s i -> i + lenN sv <= lenN s.
Proof. intros (a & b & -> & <-). rewrite !lenN_app. lia. Qed.
Lemma fits_npos fs i : fits fs -> i <= lenN (text fs) -> i < npos.
Proof. unfold fits, npos. rewrite size_mod_val. change (2 ^ 63) with 9223372036854775808. lia. Qed.

Lemma find_all_string_from b fs sv step : sane fs -> fits fs -> 1 <= step <= lenN sv -> lenN sv < 2 ^ 63 ->
  forall rounds pos, pos <= lenN (text fs) -> (N.to_nat (lenN (text fs) - pos) < rounds)%nat ->
  exists l, find_all (find_sv b fs sv) step rounds pos = Ok l /\
    StronglySorted (fun i j => i + step <= j) l /\ (forall i, In i l -> pos <= i /\ occurs_at sv (text fs) i) /\
    (forall j, pos <= j -> occurs_at sv (text fs) j -> exists i, In i l /\ i <= j < i + step).
Proof.
  intros S F ST LS. assert (SM : size_mod = 2 * 2 ^ 63) by reflexivity.
  induction rounds as [|rounds IH]; intros pos LP HR; [lia|]. cbn [find_all].
  destruct (find_sv_ok b fs sv pos S F) as (r & -> & M); [unfold fits in F; lia|lia|]. cbn [obind].
  destruct M as [(NP & GE & O & NB)|(-> & NB)].
  - rewrite (proj2 (N.eqb_neq _ _) NP). pose proof (occurs_at_bound _ _ _ O) as B.
    rewrite sz_add_small by (unfold fits in F; lia).
    destruct (IH (r + step)) as (l & -> & SS & A & C); [lia|lia|]. cbn [obind]. exists (r :: l). split; [reflexivity|]. split.
    + constructor; [exact SS|]. apply Forall_forall. intros j J. apply A in J. lia.
    + split.
      * intros i [<-|J]; [split; assumption|]. apply A in J. split; [lia|tauto].
      * intros j PJ OJ. destruct (N.lt_ge_cases j r) as [Q|Q]; [exfalso; apply (NB j); [lia|exact OJ]|].
        destruct (N.lt_ge_cases j (r + step)) as [Q'|Q']; [exists r; split; [now left|lia]|].
        destruct (C j Q' OJ) as (i & I & J). exists i. split; [now right|exact J].
  - rewrite N.eqb_refl. exists []. split; [reflexivity|]. split; [constructor|]. split; [intros i []|].
    intros j PJ OJ. exfalso. now apply (NB j).
Qed.
Lemma find_all_string b fs sv step rounds : sane fs -> fits fs -> 1 <= step <= lenN sv -> lenN sv < 2 ^ 63 ->
  (length (text fs) < rounds)%nat ->
  exists l, find_all (find_sv b fs sv) step rounds 0 = Ok l /\ all_found (occurs_at sv (text fs)) step l.
Proof.
  intros S F ST LS HR. destruct (find_all_string_from b fs sv step S F ST LS rounds 0) as (l & E & SS & A & C); [lia|unfold lenN; lia|].
  exists l. split; [exact E|]. split; [exact SS|]. split; [intros i I; now apply A|]. intros j O. apply C; [lia|exact O].
Qed.

(** ** A character *)
Lemma text_app a b : text (a ++ b) = text a ++ text b.
Proof. unfold text. now rewrite map_app, concat_app. Qed.
Lemma prefixes_compare {A} (p q x y : list A) : p ++ x = q ++ y -> (exists z, q = p ++ z) \/ (exists a z, p = q ++ a :: z).
Proof.
  revert q. induction p as [|h p IH]; intros q E; [left; exists q; reflexivity|]. destruct q as [|h' q].
  - right. exists h, p. reflexivity.
  - cbn in E. injection E as <- E. destruct (IH q E) as [(z & ->)|(a & z & ->)]; [left; exists z|right; exists a, z]; reflexivity.
Qed.
(** A boundary is not inside a fragment. *)
Lemma boundary_outside fs k pos start : boundary fs k -> fragment_start fs pos start -> k <= pos -> k <= start.
Proof.
  intros (pre & post & E & <-) (pre' & f & post' & E' & -> & L) K. rewrite E in E'.
  destruct (prefixes_compare pre pre' post (f :: post') E') as [(z & ->)|(a & z & ->)].
  - rewrite text_app, lenN_app. lia.
  - exfalso. rewrite <- app_assoc in E'. apply app_inv_head in E'. cbn [app] in E'. injection E' as -> _.
    rewrite text_app in K. change (text (f :: z)) with (chars f ++ text z) in K. rewrite !lenN_app in K. lia.
Qed.
Lemma start_boundary fs pos start : fragment_start fs pos start -> boundary fs start /\ start <= pos.
Proof. intros (pre & f & post & -> & -> & L). split; [|lia]. exists pre, (f :: post). split; reflexivity. Qed.
Lemma boundary_end fs : boundary fs (lenN (text fs)).
Proof. exists fs, []. now rewrite app_nil_r. Qed.
Lemma boundary_0 fs : boundary fs 0.
Proof. exists [], fs. split; reflexivity. Qed.
Lemma char_at_bound fs c i : char_at fs c i -> i < lenN (text fs).
Proof. intros H. assert (N.to_nat i < length (text fs))%nat by (apply nth_error_Some; unfold char_at in H; congruence). unfold lenN. lia. Qed.

(** A search from a boundary finds the first match from there. *)
Lemma find_at_boundary fs c pos : fits fs -> boundary fs pos -> pos <= lenN (text fs) ->
  exists r, find_char_fs fs c pos = Ok r /\ first_match (char_at fs c) pos r.
Proof.
  intros F B L. destruct (N.eq_dec pos 0) as [->|NZ]; [exact (find_char_first fs c F)|].
  destruct (N.eq_dec pos (lenN (text fs))) as [->|NE].
  - exists npos. split; [apply find_char_past; lia|]. right. split; [reflexivity|]. intros j J O. apply char_at_bound in O. lia.
  - destruct (find_char_spec' fs c pos F) as (start & r & E & FS & M); [lia|lia|]. exists r. split; [exact E|].
    pose proof (boundary_outside fs pos pos start B FS ltac:(lia)). pose proof (start_boundary _ _ _ FS) as [_ ?].
    replace pos with start by lia. exact M.
Qed.
(** From behind a match that is not the last character of its fragment, the same match is found again. *)
Lemma find_again fs c pos r : fits fs -> boundary fs pos -> pos <= r -> char_at fs c r -> (forall j, pos <= j < r -> ~ char_at fs c j) ->
  ~ boundary fs (r + 1) -> find_char_fs fs c (r + 1) = Ok r.
Proof.
  intros F B PR O NB NBD. pose proof (char_at_bound _ _ _ O) as L.
  assert (r + 1 <> lenN (text fs)) by (intros Q; apply NBD; rewrite Q; apply boundary_end).
  destruct (find_char_spec' fs c (r + 1) F) as (start & r' & -> & FS & M); [lia|lia|]. f_equal.
  pose proof (boundary_outside fs pos (r + 1) start B FS ltac:(lia)) as G. pose proof (start_boundary _ _ _ FS) as [BS LS].
  assert (start <> r + 1) by (intros ->; contradiction).
  destruct M as [(NP & GE & O' & NB')|(-> & NB')].
  - destruct (N.lt_trichotomy r' r) as [Q|[Q|Q]]; [exfalso; apply (NB r'); [lia|exact O']|exact Q|].
    exfalso. apply (NB' r); [lia|exact O].
  - exfalso. apply (NB' r); [lia|exact O].
Qed.

Lemma find_all_char_from fs c : fits fs -> forall rounds pos, boundary fs pos -> pos <= lenN (text fs) ->
  ((forall i, pos <= i -> char_at fs c i -> boundary fs (i + 1)) -> (N.to_nat (lenN (text fs) - pos) < rounds)%nat ->
    exists l, find_all (find_char_fs fs c) 1 rounds pos = Ok l /\ StronglySorted (fun i j => i + 1 <= j) l /\
      forall i, In i l <-> pos <= i /\ char_at fs c i) /\
  ((exists i, pos <= i /\ char_at fs c i /\ ~ boundary fs (i + 1)) -> find_all (find_char_fs fs c) 1 rounds pos = Diverge).
Proof.
  intros F. induction rounds as [|rounds IH]; intros pos B L; [split; [lia|reflexivity]|]. cbn [find_all].
  destruct (find_at_boundary fs c pos F B L) as (r & -> & M). cbn [obind].
  destruct M as [(NP & GE & O & NB)|(-> & NB)].
  - rewrite (proj2 (N.eqb_neq _ _) NP). pose proof (char_at_bound _ _ _ O) as LR.
    rewrite sz_add_small by (pose proof (fits_npos fs r F ltac:(lia)); unfold npos in *; rewrite size_mod_val in *; lia).
    split.
    + intros ALL HR. pose proof (ALL r GE O) as BR.
      destruct (IH (r + 1) BR) as [A _]; [lia|]. destruct A as (l & -> & SS & I); [intros i Q; apply ALL; lia|lia|].
      cbn [obind]. exists (r :: l). split; [reflexivity|]. split.
      * constructor; [exact SS|]. apply Forall_forall. intros j J. apply I in J. lia.
      * intros i. cbn [In]. rewrite I. split.
        -- intros [<-|[Q1 Q2]]; [split; assumption|split; [lia|exact Q2]].
        -- intros [Q1 Q2]. destruct (N.lt_trichotomy i r) as [Q|[Q|Q]]; [exfalso; apply (NB i); [lia|exact Q2]|now left|].
           right. split; [lia|exact Q2].
    + intros (i & PI & OI & NBI).
      assert (D : find_all (find_char_fs fs c) 1 rounds (r + 1) = Diverge); [|now rewrite D].
      assert (DB : boundary fs (r + 1) \/ ~ boundary fs (r + 1)).
      { destruct (N.eq_dec i r) as [->|NE]; [now right|].
        (* decide by the search itself *)
        destruct (N.eq_dec (r + 1) (lenN (text fs))) as [Q|Q]; [left; rewrite Q; apply boundary_end|].
        destruct (find_char_spec' fs c (r + 1) F) as (start & r' & _ & FS & _); [lia|lia|].
        pose proof (start_boundary _ _ _ FS) as [BS LS]. destruct (N.eq_dec start (r + 1)) as [<-|NS]; [now left|]. right. intros BB.
        pose proof (boundary_outside fs (r + 1) (r + 1) start BB FS ltac:(lia)). lia. }
      destruct DB as [BR|NBR].
      * destruct (IH (r + 1) BR) as [_ D]; [lia|]. apply D. exists i. split; [|split; assumption].
        destruct (N.lt_trichotomy i r) as [Q|[Q|Q]]; [exfalso; apply (NB i); [lia|exact OI]|subst; contradiction|lia].
      * clear IH. pose proof (find_again fs c pos r F B GE O NB NBR) as AG.
        induction rounds as [|rounds IH]; [reflexivity|]. cbn [find_all]. rewrite AG. cbn [obind].
        rewrite (proj2 (N.eqb_neq _ _) NP).
        rewrite sz_add_small by (pose proof (fits_npos fs r F ltac:(lia)); unfold npos in *; rewrite size_mod_val in *; lia).
        rewrite IH. reflexivity.
  - rewrite N.eqb_refl. split.
    + intros _ _. exists []. split; [reflexivity|]. split; [constructor|]. intros i. split; [intros []|]. intros [Q1 Q2]. exact (NB i Q1 Q2).
    + intros (i & PI & OI & _). exfalso. exact (NB i PI OI).
Qed.
Lemma find_all_char fs c rounds : fits fs -> (length (text fs) < rounds)%nat ->
  (forall i, char_at fs c i -> boundary fs (i + 1)) ->
  exists l, find_all (find_char_fs fs c) 1 rounds 0 = Ok l /\ all_found (char_at fs c) 1 l.
Proof.
  intros F HR ALL. destruct (find_all_char_from fs c F rounds 0 (boundary_0 fs)) as [A _]; [lia|].
  destruct A as (l & E & SS & I); [intros i _; apply ALL|unfold lenN; lia|]. exists l. split; [exact E|]. split; [exact SS|]. split.
  - intros i J. now apply I.
  - intros j J. exists j. split; [apply I; split; [lia|exact J]|lia].
Qed.
Lemma find_all_char_never fs c rounds i : fits fs -> char_at fs c i -> ~ boundary fs (i + 1) ->
  find_all (find_char_fs fs c) 1 rounds 0 = Diverge.
Proof.
  intros F O NB. destruct (find_all_char_from fs c F rounds 0 (boundary_0 fs)) as [_ A]; [lia|]. apply A. exists i. split; [lia|split; assumption].
Qed.

(** ** Splitting *)
Lemma occurs_one d s i : occurs_at [d] s i <-> nth_error s (N.to_nat i) = Some d.
Proof.
  split.
  - intros (a & b & -> & <-). unfold lenN. rewrite Nat2N.id, nth_error_app2, Nat.sub_diag by lia. reflexivity.
  - intros H. apply nth_error_split in H. destruct H as (a & b & -> & L). exists a, b. split; [reflexivity|]. unfold lenN. lia.
Qed.
Lemma nth_skip {A} (l : list A) n k : nth_error (skipn n l) k = nth_error l (n + k)%nat.
Proof. revert l. induction n as [|n IH]; intros l; [reflexivity|]. destruct l; cbn [skipn]; [now destruct k|]. apply IH. Qed.
Lemma first_none d s start : (forall j, start <= j -> ~ occurs_at [d] s j) -> ~ In d (dropN start s).
Proof.
  intros H I. apply In_nth_error in I. destruct I as (k & K). unfold dropN in K. rewrite nth_skip in K.
  apply (H (start + N.of_nat k)); [lia|]. apply occurs_one. rewrite <- K. f_equal. lia.
Qed.
Lemma first_some d s start r : start <= r -> occurs_at [d] s r -> (forall j, start <= j < r -> ~ occurs_at [d] s j) ->
  dropN start s = slice s start (r - start) ++ d :: dropN (r + 1) s /\ ~ In d (slice s start (r - start)).
Proof.
  intros G (a & b & -> & <-) H. unfold slice. rewrite dropN_app. replace (start - lenN a) with 0 by lia. rewrite dropN_0.
  rewrite takeN_app_exact by (rewrite lenN_dropN; lia). split.
  - f_equal. cbn [app]. f_equal. change (a ++ d :: b) with (a ++ [d] ++ b). rewrite app_assoc, dropN_app.
    rewrite dropN_all by (rewrite lenN_app; change (lenN [d]) with 1; lia).
    rewrite lenN_app. change (lenN [d]) with 1. replace (lenN a + 1 - (lenN a + 1)) with 0 by lia. now rewrite dropN_0.
  - intros I. apply In_nth_error in I. destruct I as (k & K). assert (KL : (k < length (dropN start a))%nat) by (apply nth_error_Some; congruence).
    assert (LD : lenN (dropN start a) = lenN a - start) by apply lenN_dropN. unfold dropN in K. rewrite nth_skip in K.
    unfold lenN in *. apply (H (start + N.of_nat k)); [lia|]. apply occurs_one. rewrite nth_error_app1 by lia. rewrite <- K. f_equal. lia.
Qed.

Definition bare (d : N) (s : list N) : Prop := s = [] \/ exists r, s = r ++ [d].
Lemma split_from b fs d : sane fs -> fits fs -> forall rounds start, start <= lenN (text fs) -> (N.to_nat (lenN (text fs) - start) < rounds)%nat ->
  split_by_find_guarded b fs d rounds start = Ok (tokens d (dropN start (text fs))) /\
  (bare d (dropN start (text fs)) -> split_by_find b fs d rounds start = Throw out_of_range) /\
  (~ bare d (dropN start (text fs)) -> split_by_find b fs d rounds start = Ok (tokens d (dropN start (text fs)))).
Proof.
  intros S F. assert (SM : size_mod = 2 * 2 ^ 63) by reflexivity. pose proof F as FF. unfold fits in FF.
  induction rounds as [|rounds IH]; intros start L HR; [lia|]. cbn [split_by_find split_by_find_guarded].
  destruct (find_sv_ok b fs [d] start S F) as (r & -> & M); [change (lenN [d]) with 1; lia|change (lenN [d]) with 1; lia|]. cbn [obind].
  destruct M as [(NP & GE & O & NB)|(-> & NB)].
  - rewrite (proj2 (N.eqb_neq _ _) NP). pose proof (occurs_at_bound _ _ _ O) as B. change (lenN [d]) with 1 in B.
    rewrite substr_ok by (try assumption; lia). cbn [obind]. rewrite sz_add_small by lia.
    destruct (IH (r + 1)) as (G & T & K); [lia|lia|]. rewrite G. cbn [obind].
    destruct (first_some d (text fs) start r GE O NB) as [E NI]. rewrite E, tokens_app by exact NI. split; [reflexivity|].
    set (t := slice (text fs) start (r - start)) in *. set (rest := dropN (r + 1) (text fs)) in *.
    assert (BI : bare d (t ++ d :: rest) <-> bare d rest).
    { split.
      - intros [Q|(z & Q)]; [destruct t; discriminate|]. destruct rest as [|x rest'] using rev_ind; [now left|].
        right. change (t ++ d :: rest' ++ [x]) with (t ++ (d :: rest') ++ [x]) in Q. rewrite app_assoc in Q.
        apply app_inj_tail in Q. destruct Q as [_ ->]. now exists rest'.
      - intros [Q|(z & Q)]; right; [exists t; now rewrite Q|]. exists (t ++ d :: z). rewrite Q, <- app_assoc. reflexivity. }
    split.
    + intros BB. rewrite T by (now apply BI). reflexivity.
    + intros BB. rewrite K by (rewrite <- BI; exact BB). reflexivity.
  - rewrite N.eqb_refl. pose proof (first_none d (text fs) start NB) as NI. rewrite tokens_free by exact NI. rewrite length_of_text.
    destruct (N.eq_dec start (lenN (text fs))) as [->|NE].
    + rewrite N.ltb_irrefl, substr_throws by lia. cbn [obind]. rewrite dropN_all by lia. split; [reflexivity|]. split; [reflexivity|].
      intros Q. exfalso. apply Q. now left.
    + rewrite (proj2 (N.ltb_lt _ _)) by lia. rewrite substr_ok by (try assumption; try lia; now right). cbn [obind].
      assert (SL : slice (text fs) start npos = dropN start (text fs)).
      { unfold slice. apply takeN_all. rewrite lenN_dropN. pose proof (fits_npos fs (lenN (text fs)) F ltac:(lia)). lia. }
      rewrite SL. split; [reflexivity|]. split; [|reflexivity].
      intros [Q|(z & Q)].
      * exfalso. apply (f_equal lenN) in Q. rewrite lenN_dropN in Q. change (lenN (@nil N)) with 0 in Q. lia.
      * exfalso. apply NI. rewrite Q. apply in_or_app. right. now left.
Qed.
Lemma split_guarded b fs d rounds : sane fs -> fits fs -> (length (text fs) < rounds)%nat ->
  split_by_find_guarded b fs d rounds 0 = split (fun _ => true) (text fs) d keep_empty.
Proof.
  intros S F HR. destruct (split_from b fs d S F rounds 0) as (G & _); [lia|unfold lenN; lia|]. rewrite G, dropN_0, split_ok. reflexivity.
Qed.
Lemma split_unguarded b fs d rounds : sane fs -> fits fs -> (length (text fs) < rounds)%nat ->
  (text fs = [] \/ (exists r, text fs = r ++ [d]) -> split_by_find b fs d rounds 0 = Throw out_of_range) /\
  (text fs <> [] -> ~ (exists r, text fs = r ++ [d]) ->
     split_by_find b fs d rounds 0 = split (fun _ => true) (text fs) d keep_empty).
Proof.
  intros S F HR. destruct (split_from b fs d S F rounds 0) as (_ & T & K); [lia|unfold lenN; lia|]. rewrite dropN_0 in T, K. split; [exact T|].
  intros A B. rewrite split_ok. apply K. intros [Q|Q]; contradiction.
Qed.
Lemma char_refuted : exists fs, to_str fs = Ok [97; 98] /\ forall rounds, find_all (find_char_fs fs 97) 1 rounds 0 = Diverge.
Proof.
  exists [Some [97; 98]]. split; [reflexivity|]. intros rounds. apply (find_all_char_never _ _ _ 0); [reflexivity|reflexivity|].
  intros (pre & post & E & L). destruct pre as [|f pre]; [discriminate|]. injection E as <- E. symmetry in E. apply app_eq_nil in E. destruct E as [-> ->].
  discriminate.
Qed.
Lemma split_refuted : exists fs, to_str fs = Ok [97; 44] /\
  (forall b rounds, (3 <= rounds)%nat -> split_by_find b fs 44 rounds 0 = Throw out_of_range) /\
  split (fun _ => true) [97; 44] 44 keep_empty = Ok [[97]; []].
Proof.
  exists [Some [97; 44]]. split; [reflexivity|]. split; [|reflexivity]. intros b rounds R. apply (split_unguarded b [Some [97; 44]] 44 rounds).
  - split; [discriminate|constructor].
  - reflexivity.
  - cbn. lia.
  - right. exists [97]. reflexivity.
Qed.
