(** Proofs about the constructors of fragment strings. *)
From Coq Require Import List. Import ListNotations.
From Verif Require Import Base String_Model Frag_Model FragMake_Model Frag_Spec FragMake_Spec Frag_Proofs Frag_PropLemmas FragOps_Proofs.

Lemma text_nulls n : text (repeat None n) = [].
Proof. induction n; [reflexivity|]. exact IHn. Qed.
Lemma text_one t : text [Some t] = t.
Proof. unfold text. cbn. apply app_nil_r. Qed.

Lemma from_ptr_c_string mem t : c_string mem t -> from_ptr (Some mem) = Ok [Some t].
Proof. intros [H [rest ->]]. cbn. now rewrite c_text_nul. Qed.

Lemma append_fragments_app a b : forall out,
  append_fragments out (a ++ b) = let! s := append_fragments out a in append_fragments s b.
Proof.
  induction a as [|f a IH]; intros out; [reflexivity|]. destruct f as [t|]; [|reflexivity].
  cbn [app append_fragments]. destruct (c_text (t ++ [0])); cbn [obind]; [apply IH|reflexivity..].
Qed.
Lemma append_fragments_out a : forall out,
  append_fragments out a = let! s := to_str a in Ok (out ++ s).
Proof.
  unfold to_str. induction a as [|f a IH]; intros out; [cbn; now rewrite app_nil_r|]. destruct f as [t|]; [|reflexivity].
  cbn [append_fragments]. destruct (c_text (t ++ [0])) as [s| | | |]; cbn [obind]; try reflexivity.
  rewrite IH, (IH ([] ++ s)). destruct (append_fragments [] a); cbn [obind]; [|reflexivity..].
  now rewrite app_assoc.
Qed.
Lemma to_str_app a b s t : to_str a = Ok s -> to_str b = Ok t -> to_str (a ++ b) = Ok (s ++ t).
Proof.
  intros A B. unfold to_str at 1. rewrite append_fragments_app.
  unfold to_str at 1 in A. rewrite A. cbn [obind]. rewrite append_fragments_out, B. reflexivity.
Qed.

Lemma pointer_any_count n mem t : c_string mem t ->
  exists fs, from_ptr_n (S n) (Some mem) = Ok fs /\ length fs = S n /\ text fs = t /\ length_of fs = lenN t /\
    (n = 0%nat -> to_str fs = Ok t) /\ ((0 < n)%nat -> to_str fs = UB).
Proof.
  intros H. exists (Some t :: repeat None n). unfold from_ptr_n. rewrite (from_ptr_c_string _ _ H). cbn [obind].
  split; [reflexivity|]. split; [cbn; now rewrite repeat_length|].
  assert (T : text (Some t :: repeat None n) = t).
  { change (t ++ text (repeat None n) = t). now rewrite text_nulls, app_nil_r. }
  split; [exact T|]. split; [now rewrite length_of_text, T|]. split.
  - intros ->. unfold to_str. cbn. rewrite c_text_nul by apply H. reflexivity.
  - intros Hn. apply to_str_no_default. destruct n; [lia|]. right. now left.
Qed.

Lemma pointer_iteration b n mem t fs : c_string mem t -> from_ptr_n (S n) (Some mem) = Ok fs ->
  (walk b fs = Ok t <-> n = 0%nat \/ (n = 1%nat /\ t <> [])).
Proof.
  intros H E. unfold from_ptr_n in E. rewrite (from_ptr_c_string _ _ H) in E. cbn [obind] in E. injection E as <-.
  cbn [app].
  assert (T : text (Some t :: repeat None n) = t).
  { change (t ++ text (repeat None n) = t). now rewrite text_nulls, app_nil_r. }
  assert (S1 : sane (Some t :: repeat None n) -> n = 0%nat \/ (n = 1%nat /\ t <> [])).
  { intros [_ F]. destruct n as [|[|n]]; [now left|right; split; [reflexivity|]; inversion F; assumption|].
    exfalso. cbn in F. inversion F as [|? ? _ F1]; subst. inversion F1 as [|? ? F2 _]; subst. now apply F2. }
  split.
  - intros W. apply S1. destruct (Forall_dec (fun f => chars f <> []) (fun f => match chars f as c return {c <> []} + {~ c <> []} with [] => right (fun h => h eq_refl) | x :: l => left (fun h => nil_cons (eq_sym h)) end) (removelast (Some t :: repeat None n))) as [F|F].
    + split; [discriminate|exact F].
    + exfalso. rewrite walk_not_sane in W; [|discriminate|intros [_ F']; now apply F].
      destruct b; discriminate W.
  - intros D. rewrite <- T at 2. apply iterate_forwards_backwards. split; [discriminate|].
    destruct D as [->|[-> Ht]]; repeat constructor. exact Ht.
Qed.

Lemma pointer_undefined_n n p : (from_ptr_n (S n) p = UB <-> forall mem, p = Some mem -> ~ In 0 mem).
Proof.
  rewrite <- (proj1 (pointer_undefined [] p)). unfold from_ptr_n. destruct (from_ptr p); cbn [obind]; split; (reflexivity || discriminate || (intros E; exact E)).
Qed.

Lemma copy_views_ok src : forall pre mid post, length mid = length src ->
  copy_views src (pre ++ mid ++ post) (length pre) = Ok (pre ++ src ++ post, length (pre ++ src)).
Proof.
  induction src as [|f src IH]; intros pre mid post H.
  - destruct mid; [|discriminate]. cbn. now rewrite app_nil_r.
  - destruct mid as [|g mid]; [discriminate|]. cbn [copy_views].
    rewrite (proj2 (Nat.ltb_lt _ _)) by (rewrite !app_length; cbn; lia).
    rewrite firstn_app, firstn_all, Nat.sub_diag. cbn [firstn]. rewrite app_nil_r.
    replace (skipn (S (length pre)) (pre ++ (g :: mid) ++ post)) with (mid ++ post).
    2: { rewrite skipn_app, skipn_all2 by lia. replace (S (length pre) - length pre)%nat with 1%nat by lia. reflexivity. }
    specialize (IH (pre ++ [f]) mid post). rewrite <- !app_assoc in IH. cbn [app] in IH.
    rewrite app_length in IH. cbn [length] in IH. rewrite Nat.add_1_r in IH. apply IH. now injection H.
Qed.
Lemma copy_views_over src : forall dest i, (length dest < i + length src)%nat -> (i <= length dest)%nat -> copy_views src dest i = UB.
Proof.
  induction src as [|f src IH]; intros dest i H Hi; cbn in H; [lia|]. cbn [copy_views].
  destruct (Nat.ltb_spec i (length dest)); [|reflexivity]. apply IH.
  - rewrite app_length, firstn_length, Nat.min_l by lia. cbn [length]. rewrite skipn_length. lia.
  - rewrite app_length, firstn_length, Nat.min_l by lia. cbn [length]. rewrite skipn_length. lia.
Qed.

Lemma from_parts_ok n l r : (length l + length r <= n)%nat ->
  from_parts n l r = Ok (l ++ r ++ repeat None (n - (length l + length r))).
Proof.
  intros H. unfold from_parts.
  set (k := (n - (length l + length r))%nat).
  replace n with (length l + (length r + k))%nat by lia. rewrite !repeat_app.
  pose proof (copy_views_ok l [] (repeat None (length l)) (repeat None (length r) ++ repeat None k)) as A.
  cbn [app length] in A. unfold frags, fragment in *. rewrite A by apply repeat_length. cbn [obind fst snd].
  pose proof (copy_views_ok r l (repeat None (length r)) (repeat None k)) as B. unfold frags, fragment in *.
  rewrite B by apply repeat_length. reflexivity.
Qed.
Lemma from_parts_over n l r : (n < length l + length r)%nat -> from_parts n l r = UB.
Proof.
  intros H. unfold from_parts. destruct (Nat.leb_spec (length l) n).
  - replace n with (length l + (n - length l))%nat by lia. rewrite repeat_app.
    pose proof (copy_views_ok l [] (repeat None (length l)) (repeat None (n - length l))) as A.
    cbn [app length] in A. unfold frags, fragment in *. rewrite A by apply repeat_length. cbn [obind fst snd].
    rewrite copy_views_over; [reflexivity| |]; rewrite app_length, repeat_length; unfold frags, fragment in *; lia.
  - rewrite copy_views_over; [reflexivity| |]; rewrite repeat_length; lia.
Qed.

Lemma parts_any_count n l r : (length l + length r <= n)%nat ->
  exists fs, from_parts n l r = Ok fs /\ length fs = n /\ text fs = text l ++ text r /\
    length_of fs = length_of l + length_of r /\
    ((length l + length r = n)%nat -> forall s t, to_str l = Ok s -> to_str r = Ok t -> to_str fs = Ok (s ++ t)) /\
    ((length l + length r < n)%nat -> to_str fs = UB).
Proof.
  intros H. eexists. split; [now apply from_parts_ok|].
  split; [rewrite !app_length, repeat_length; lia|].
  assert (T : text (l ++ r ++ repeat None (n - (length l + length r))) = text l ++ text r).
  { now rewrite !text_app, text_nulls, app_nil_r. }
  split; [exact T|]. split; [rewrite !length_of_text, T; unfold lenN; rewrite app_length; lia|]. split.
  - intros E s t A B. replace (n - (length l + length r))%nat with 0%nat by lia. cbn [repeat]. rewrite app_nil_r.
    now apply to_str_app.
  - intros E. apply to_str_no_default. apply in_or_app. right. apply in_or_app. right.
    destruct (n - (length l + length r))%nat eqn:D; [lia|]. now left.
Qed.
Lemma parts_precondition n l r : from_parts n l r = UB <-> (n < length l + length r)%nat.
Proof.
  destruct (Nat.leb_spec (length l + length r) n).
  - rewrite from_parts_ok by assumption. split; [discriminate|lia].
  - rewrite from_parts_over by assumption. split; [intros _; assumption|reflexivity].
Qed.
Lemma parts_is_plus l r : from_parts (length l + length r) l r = Ok (plus l r).
Proof. rewrite from_parts_ok, Nat.sub_diag by lia. cbn [repeat]. now rewrite app_nil_r. Qed.

Lemma first_nul (s : list N) : In 0 s -> exists s1 s2, s = s1 ++ 0 :: s2 /\ ~ In 0 s1.
Proof.
  induction s as [|c s IH]; intros I; [destruct I|]. destruct (N.eq_dec c 0) as [->|C].
  - exists [], s. split; [reflexivity|intros []].
  - destruct IH as (s1 & s2 & -> & H); [destruct I as [I|I]; [contradiction|exact I]|].
    exists (c :: s1), s2. split; [reflexivity|]. intros [D|D]; contradiction.
Qed.

Lemma literal_text s :
  exists fs, literal (s ++ [0]) (lenN s) = Ok fs /\
    (~ In 0 s -> reads_as fs s) /\
    (forall s1 s2, s = s1 ++ 0 :: s2 -> ~ In 0 s1 -> reads_as fs s1).
Proof.
  assert (R : forall t, ~ In 0 t -> reads_as [Some t] t).
  { intros t Ht. split; [apply text_one|]. split; [now rewrite length_of_text, text_one|].
    unfold to_str. cbn. now rewrite c_text_nul. }
  assert (L : forall t rest len, ~ In 0 t -> literal (t ++ 0 :: rest) len = Ok [Some t]).
  { intros t rest len Ht. apply from_ptr_c_string. split; [exact Ht|]. now exists rest. }
  destruct (in_dec N.eq_dec 0 s) as [I|I].
  - destruct (first_nul s I) as (s1 & s2 & -> & H).
    exists [Some s1]. rewrite <- app_assoc. cbn [app]. split; [now apply L|]. split; [intros C; elim C; exact I|].
    intros t1 t2 E Ht. replace t1 with s1; [now apply R|].
    assert (A : c_text (s1 ++ 0 :: s2) = Ok s1) by now apply c_text_nul.
    rewrite E in A. rewrite c_text_nul in A by exact Ht. now injection A.
  - exists [Some s]. split; [now apply L|]. split; [now apply R|].
    intros s1 s2 -> _. elim I. apply in_or_app. right. now left.
Qed.

Lemma sizes_are_length fs : fs_size fs = lenN (text fs) /\ fs_max_size fs = lenN (text fs) /\ fs_capacity fs = lenN (text fs).
Proof. repeat split; apply length_of_text. Qed.

Lemma pointer_refuted : exists mem t fs, c_string mem t /\ t <> [] /\
  from_ptr_n 2 (Some mem) = Ok fs /\ length_of fs = lenN t /\ to_str fs = UB.
Proof.
  exists [97; 0], [97], [Some [97]; None]. split; [split; [intros [H|[]]; discriminate|now exists []]|].
  split; [discriminate|]. repeat split.
Qed.
Lemma literal_refuted : exists s fs, literal (s ++ [0]) (lenN s) = Ok fs /\ length_of fs < lenN s.
Proof. exists [97; 0; 98], [Some [97]]. split; reflexivity. Qed.
