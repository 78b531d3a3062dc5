(** Proofs about tables of text. *)
From Coq Require Import List NArith Lia. Import ListNotations.
From Verif Require Import Base BaseFacts String_Model String_Spec String_Proofs ListText_Spec ListText_Proofs Table_Spec.
Open Scope N_scope. Open Scope list_scope.

Lemma in_joined d x ts : In x (joined d ts) -> x = d \/ exists t, In t ts /\ In x t.
Proof.
  induction ts as [|t [|u r] IH]; intros H; [destruct H| |].
  - right. exists t. split; [now left|exact H].
  - change (joined d (t :: u :: r)) with (t ++ d :: joined d (u :: r)) in H. apply in_app_or in H. destruct H as [H|[H|H]].
    + right. exists t. split; [now left|exact H].
    + left. now symmetry.
    + destruct (IH H) as [->|(v & V & W)]; [now left|]. right. exists v. split; [now right|exact W].
Qed.
Lemma joined_part d t ts : In t ts -> lenN t <= lenN (joined d ts).
Proof.
  induction ts as [|u [|v r] IH]; intros H; [destruct H| |].
  - destruct H as [->|[]]. cbn [joined]. lia.
  - change (joined d (u :: v :: r)) with (u ++ d :: joined d (v :: r)). destruct H as [->|H].
    + unfold lenN. rewrite app_length. lia.
    + specialize (IH H). unfold lenN in *. rewrite app_length. cbn [length]. lia.
Qed.
Lemma joined_app d a b : a <> [] -> b <> [] -> joined d (a ++ b) = joined d a ++ d :: joined d b.
Proof.
  intros A B. induction a as [|t [|u r] IH]; [congruence| |].
  - cbn [app joined]. destruct b; [congruence|reflexivity].
  - cbn [app]. change (joined d (t :: u :: r)) with (t ++ d :: joined d (u :: r)).
    change (joined d (t :: u :: r ++ b)) with (t ++ d :: joined d ((u :: r) ++ b)). rewrite IH by discriminate. rewrite <- app_assoc. reflexivity.
Qed.
(** The text around an item does not depend on the item. *)
Lemma joined_around d l1 l2 : exists a b, forall t, joined d (l1 ++ t :: l2) = a ++ t ++ b.
Proof.
  induction l1 as [|u r IH].
  - destruct l2 as [|v l2]; [exists [], []; intros t; cbn [app joined]; now rewrite app_nil_r|].
    exists [], (d :: joined d (v :: l2)). intros t. reflexivity.
  - destruct IH as (a & b & H). exists (u ++ d :: a), b. intros t. rewrite <- app_assoc. cbn [app]. rewrite <- (H t).
    destruct (r ++ t :: l2) eqn:E; [destruct r; discriminate|]. reflexivity.
Qed.

Section T.
Context (dr dc : N) (D : dr <> dc).
Lemma line_ok r : Forall (cell_ok dr dc) r -> ~ In dr (joined dc r).
Proof.
  intros F H. apply in_joined in H. destruct H as [H|(t & T & I)]; [congruence|]. rewrite Forall_forall in F. destruct (F t T) as (X & _). exact (X I).
Qed.
Lemma read_char b s : read_table b dr dc s = Ok (map (tokens dc) (kept b (tokens dr s))).
Proof.
  unfold read_table. rewrite split_ok. cbn [obind]. rewrite (each_ok _ (tokens dc)); [reflexivity|].
  apply Forall_forall. intros l _. rewrite split_ok. reflexivity.
Qed.
Lemma table_tokens rows : table_ok dr dc rows -> map (tokens dc) (tokens dr (table_text dr dc rows)) = rows.
Proof.
  intros (NE & F). unfold table_text. rewrite joined_tokens.
  - rewrite map_map. rewrite <- (map_id rows) at 2. apply map_ext_in. intros r R. rewrite Forall_forall in F. destruct (F r R) as (N1 & C).
    apply joined_tokens; [assumption|]. apply Forall_forall. intros c I. rewrite Forall_forall in C. apply (C c I).
  - intros K. apply map_eq_nil in K. contradiction.
  - apply Forall_forall. intros l L. apply in_map_iff in L. destruct L as (r & <- & R). rewrite Forall_forall in F. apply line_ok. now apply F.
Qed.
Lemma write_char max_size rows : lenN (table_text dr dc rows) <= max_size -> max_size < size_mod -> write_table max_size dr dc rows = Ok (table_text dr dc rows).
Proof.
  intros L M. unfold write_table. rewrite (each_ok _ (joined dc)).
  - cbn [obind]. apply join_ok; [|assumption]. rewrite <- (joined_lengthN dr). exact L.
  - apply Forall_forall. intros r R. apply join_ok; [|assumption]. rewrite <- (joined_lengthN dc).
    pose proof (joined_part dr (joined dc r) (map (joined dc) rows) (in_map _ _ _ R)). unfold table_text in L. lia.
Qed.
Lemma table_back rows max_size : table_ok dr dc rows -> lenN (table_text dr dc rows) <= max_size -> max_size < size_mod ->
  write_table max_size dr dc rows = Ok (table_text dr dc rows) /\ read_table keep_empty dr dc (table_text dr dc rows) = Ok rows.
Proof.
  intros T L M. split; [now apply write_char|]. rewrite read_char. cbn [kept]. now rewrite table_tokens.
Qed.
Lemma tokens_free d s : Forall (fun t => ~ In d t) (tokens d s) /\ tokens d s <> [].
Proof.
  destruct (split_total (fun _ => true) s d keep_empty) as (ts & E & F & L & _). rewrite split_ok in E. cbn [kept] in E. injection E as <-.
  split; [exact F|]. intros K. specialize (L eq_refl). rewrite K in L. unfold lenN in L at 1. cbn [length] in L. lia.
Qed.
Lemma any_table s : exists rows, table_ok dr dc rows /\ table_text dr dc rows = s /\ read_table keep_empty dr dc s = Ok rows.
Proof.
  exists (map (tokens dc) (tokens dr s)). split; [|split].
  - split; [intros K; apply map_eq_nil in K; now apply (tokens_free dr s)|]. apply Forall_forall. intros r R. apply in_map_iff in R.
    destruct R as (l & <- & I). destruct (tokens_free dc l) as (F & N1). split; [exact N1|]. apply Forall_forall. intros c C. split.
    + destruct (tokens_free dr s) as (G & _). rewrite Forall_forall in G. intros K. apply (G l I). rewrite <- (tokens_joined dc l).
      clear - C K. induction (tokens dc l) as [|t [|u q] IH]; [destruct C| |].
      * destruct C as [->|[]]. exact K.
      * change (joined dc (t :: u :: q)) with (t ++ dc :: joined dc (u :: q)). apply in_or_app. destruct C as [->|C]; [now left|]. right. right. now apply IH.
    + rewrite Forall_forall in F. now apply F.
  - unfold table_text. rewrite map_map. rewrite (map_ext _ (fun x => x)) by (intros; apply tokens_joined). rewrite map_id. apply tokens_joined.
  - rewrite read_char. reflexivity.
Qed.
Lemma rows_unique s rows rows' : table_ok dr dc rows -> table_ok dr dc rows' -> table_text dr dc rows = s -> table_text dr dc rows' = s -> rows = rows'.
Proof. intros T T' E E'. rewrite <- (table_tokens rows T), <- (table_tokens rows' T'), E, E'. reflexivity. Qed.
Lemma appended s t : exists a b, read_table keep_empty dr dc s = Ok a /\ read_table keep_empty dr dc t = Ok b /\ read_table keep_empty dr dc (s ++ dr :: t) = Ok (a ++ b).
Proof.
  destruct (any_table s) as (a & (A1 & A2) & <- & RA). destruct (any_table t) as (b & (B1 & B2) & <- & RB). exists a, b. split; [exact RA|]. split; [exact RB|].
  replace (table_text dr dc a ++ dr :: table_text dr dc b) with (table_text dr dc (a ++ b)).
  - rewrite read_char. cbn [kept]. rewrite table_tokens; [reflexivity|]. split; [destruct a; [congruence|discriminate]|]. apply Forall_app. now split.
  - unfold table_text. rewrite map_app. apply joined_app; intros K; apply map_eq_nil in K; contradiction.
Qed.
Lemma blank_lines s : exists rows, read_table keep_empty dr dc s = Ok rows /\ read_table drop_empty dr dc s = Ok (filter (fun r => negb (blank r)) rows).
Proof.
  rewrite !read_char. exists (map (tokens dc) (tokens dr s)). split; [reflexivity|]. f_equal. cbn [kept].
  assert (B : forall l, not_empty l = negb (blank (tokens dc l))).
  { intros l. pose proof (tokens_joined dc l) as J. destruct l as [|c l].
    - destruct (tokens dc []) as [|[|x t] [|u r]] eqn:E; cbn in J; try discriminate; reflexivity.
    - destruct (tokens dc (c :: l)) as [|[|x t] [|u r]] eqn:E; cbn in J; try discriminate; reflexivity. }
  induction (tokens dr s) as [|l r IH]; [reflexivity|]. cbn [filter map]. rewrite <- B. destruct (not_empty l); cbn [map]; now rewrite <- IH.
Qed.
Lemma forall_set {A} (P : A -> Prop) i x l : Forall P l -> P x -> Forall P (set_at i x l).
Proof.
  intros F X. unfold set_at. apply Forall_app. split; [|constructor; [exact X|]].
  - rewrite <- (firstn_skipn i l) in F. apply Forall_app in F. apply F.
  - rewrite <- (firstn_skipn (S i) l) in F. apply Forall_app in F. apply F.
Qed.
Lemma set_nth {A} i (x : A) l : nth_error l i = Some x -> l = set_at i x l.
Proof.
  intros H. unfold set_at. rewrite <- (firstn_skipn i l) at 1. f_equal. revert l H. induction i; intros [|y l] H; try discriminate; [cbn in *; congruence|]. cbn [skipn nth_error] in *. now apply IHi.
Qed.
Lemma change_cell rows i j r old new max_size : table_ok dr dc rows -> nth_error rows i = Some r -> nth_error r j = Some old -> cell_ok dr dc new ->
  let rows' := set_at i (set_at j new r) rows in
  (exists a b, table_text dr dc rows = a ++ old ++ b /\ table_text dr dc rows' = a ++ new ++ b) /\
  (lenN (table_text dr dc rows') <= max_size -> max_size < size_mod ->
   write_table max_size dr dc rows' = Ok (table_text dr dc rows') /\ read_table keep_empty dr dc (table_text dr dc rows') = Ok rows').
Proof.
  intros (NE & F) I J C rows'. split.
  - destruct (joined_around dr (map (joined dc) (firstn i rows)) (map (joined dc) (skipn (S i) rows))) as (a1 & b1 & H1).
    destruct (joined_around dc (firstn j r) (skipn (S j) r)) as (a2 & b2 & H2).
    exists (a1 ++ a2), (b2 ++ b1).
    assert (G : forall x, table_text dr dc (set_at i (set_at j x r) rows) = (a1 ++ a2) ++ x ++ b2 ++ b1).
    { intros x. unfold table_text. change (set_at i (set_at j x r) rows) with (firstn i rows ++ set_at j x r :: skipn (S i) rows).
      rewrite map_app, map_cons, H1. change (set_at j x r) with (firstn j r ++ x :: skipn (S j) r). rewrite H2. rewrite <- !app_assoc. reflexivity. }
    split; [|apply G]. rewrite (set_nth i r rows I) at 1. rewrite (set_nth j old r J) at 1. apply G.
  - intros L M. apply table_back; try assumption. split.
    + intros K. unfold rows', set_at in K. now destruct (firstn i rows).
    + assert (FR : r <> [] /\ Forall (cell_ok dr dc) r) by (rewrite Forall_forall in F; apply F; now apply nth_error_In in I).
      apply forall_set; [exact F|]. split; [unfold set_at; intros K; now destruct (firstn j r)|]. apply forall_set; [apply FR|exact C].
Qed.
End T.
