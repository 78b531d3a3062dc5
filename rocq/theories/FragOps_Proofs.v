(** The operations of fragment strings against the flat text. *)
From Coq Require Import List. Import ListNotations.
From Verif Require Import Base BaseFacts String_Model String_Spec String_Proofs Frag_Model Frag_Spec Frag_Proofs.

(** * Concatenation *)
Lemma c_text_nul t rest : ~ In 0 t -> c_text (t ++ 0 :: rest) = Ok t.
Proof.
  induction t as [|c t IH]; intros H; cbn [app c_text]; [reflexivity|].
  rewrite (proj2 (N.eqb_neq c 0)) by (intros ->; apply H; now left). rewrite IH by (intros X; apply H; now right). reflexivity.
Qed.
Definition nul_free (f : fragment) : Prop := match f with Some t => ~ In 0 t | None => False end.
Lemma append_fragments_ok fs : forall out, Forall nul_free fs -> append_fragments out fs = Ok (out ++ text fs).
Proof.
  induction fs as [|f fs IH]; intros out H; cbn [append_fragments]; [unfold text; cbn; now rewrite app_nil_r|].
  inversion H as [|? ? A B]; subst. destruct f as [t|]; [|contradiction A]. cbn in A. rewrite (c_text_nul t []) by assumption. cbn [obind].
  rewrite IH by assumption. now rewrite text_cons, app_assoc.
Qed.
Lemma means_eval e t : means e t -> exists fs, eval e = Ok fs /\ text fs = t /\ Forall nul_free fs /\ fs <> [].
Proof.
  induction 1 as [t rest H|l r s t _ (a & A1 & A2 & A3 & A4) _ (b & B1 & B2 & B3 & B4)|l s t rest _ (a & A1 & A2 & A3 & A4) H].
  - exists [Some t]. cbn [eval from_ptr]. rewrite c_text_nul by assumption. cbn [obind]. repeat split.
    + unfold text. cbn. apply app_nil_r.
    + constructor; [exact H|constructor].
    + discriminate.
  - exists (a ++ b). cbn [eval]. rewrite A1, B1. cbn [obind]. repeat split.
    + now rewrite text_app, A2, B2.
    + now apply Forall_app.
    + destruct a; [congruence|discriminate].
  - exists (a ++ [Some t]). cbn [eval]. rewrite A1. cbn [obind]. unfold plus_ptr, from_ptr. rewrite c_text_nul by assumption. cbn [obind]. repeat split.
    + rewrite text_app, A2. unfold text. cbn. now rewrite app_nil_r.
    + apply Forall_app. split; [assumption|constructor; [exact H|constructor]].
    + destruct a; [congruence|discriminate].
Qed.

(** * Comparison *)
Section Compare.
Variables (b : build) (ct : chartype).
Definition vlt (x y : N) : Prop := (char_value ct x < char_value ct y)%Z.
Fixpoint cmp_text (a c : list N) : Z :=
  match a, c with
  | [], [] => 0
  | [], _ => -1
  | _, [] => 1
  | x :: a', y :: c' =>
      if (char_value ct x <? char_value ct y)%Z then -1
      else if (char_value ct y <? char_value ct x)%Z then 1 else cmp_text a' c'
  end.
Lemma compare_loop_ok fs os fuel : forall i j it o, sane fs -> sane os -> spot fs i it -> spot os j o ->
  (N.to_nat (lenN (text fs) - i) < fuel)%nat ->
  compare_loop fuel b ct fs it os o = Ok (cmp_text (dropN i (text fs)) (dropN j (text os))).
Proof.
  induction fuel as [|fuel IH]; intros i j it o S T P Q F; [lia|]. cbn [compare_loop].
  rewrite (spot_eq fs i _ it _ P (spot_end fs (proj1 S))), (spot_eq os j _ o _ Q (spot_end os (proj1 T))).
  pose proof (wspot_le _ _ _ (spot_wspot _ _ _ P)) as LP. pose proof (wspot_le _ _ _ (spot_wspot _ _ _ Q)) as LQ.
  destruct (N.eqb_spec i (lenN (text fs))) as [E|E]; destruct (N.eqb_spec j (lenN (text os))) as [E'|E']; cbn [negb andb].
  - rewrite (dropN_all i), (dropN_all j) by lia. reflexivity.
  - destruct (nth_lt (text os) j ltac:(lia)) as [y Hy]. rewrite (dropN_all i), (dropN_cons _ _ y Hy) by lia.
    rewrite dassert_true. reflexivity.
  - destruct (nth_lt (text fs) i ltac:(lia)) as [x Hx]. rewrite (dropN_cons _ _ x Hx), (dropN_all j) by lia. reflexivity.
  - destruct (nth_lt (text fs) i ltac:(lia)) as [x Hx]. destruct (nth_lt (text os) j ltac:(lia)) as [y Hy].
    rewrite (spot_deref b fs i it x P Hx). cbn [obind]. rewrite (spot_deref b os j o y Q Hy). cbn [obind].
    rewrite (dropN_cons _ _ x Hx), (dropN_cons _ _ y Hy). cbn [cmp_text].
    destruct (char_value ct x <? char_value ct y)%Z; [reflexivity|].
    destruct (char_value ct y <? char_value ct x)%Z; [reflexivity|].
    destruct (spot_inc b fs i it S P ltac:(lia)) as (it' & -> & P'). cbn [obind].
    destruct (spot_inc b os j o T Q ltac:(lia)) as (o' & -> & Q'). cbn [obind].
    apply IH; auto. lia.
Qed.
Lemma compare_ok fs os : sane fs -> sane os -> compare_fs b ct fs os = Ok (cmp_text (text fs) (text os)).
Proof.
  intros S T. unfold compare_fs. rewrite length_of_text.
  rewrite (compare_loop_ok fs os _ 0 0); auto using spot_begin; try lia.
Qed.

Lemma char_value_inj x y : code_ok ct x -> code_ok ct y -> char_value ct x = char_value ct y -> x = y.
Proof.
  destruct ct as [[]|]; cbn; intros A B; try lia.
  destruct (N.ltb_spec x 128), (N.ltb_spec y 128); lia.
Qed.
Lemma cmp_text_eq a : forall c, Forall (code_ok ct) a -> Forall (code_ok ct) c -> (cmp_text a c = 0%Z <-> a = c).
Proof.
  induction a as [|x a IH]; intros [|y c] A C; cbn [cmp_text]; try (split; [discriminate|discriminate || reflexivity]); [tauto|].
  inversion A; inversion C; subst. destruct (Z.ltb_spec (char_value ct x) (char_value ct y)).
  - split; [discriminate|]. intros E. injection E as -> ->. lia.
  - destruct (Z.ltb_spec (char_value ct y) (char_value ct x)).
    + split; [discriminate|]. intros E. injection E as -> ->. lia.
    + assert (x = y) by (apply char_value_inj; auto; lia). subst y. rewrite IH by assumption.
      split; [now intros ->|intros E; now injection E].
Qed.
Lemma lex_less_cons lt x y a c : lex_less lt (x :: a) (y :: c) <-> lt x y \/ x = y /\ lex_less lt a c.
Proof.
  split.
  - intros ([|p0 p] & a' & b' & A & B & M); cbn [app] in *.
    + subst a' b'. now left.
    + injection A as -> A. injection B as -> B. right. split; [reflexivity|]. exists p, a', b'. auto.
  - intros [H|[-> (p & a' & b' & A & B & M)]].
    + exists [], (x :: a), (y :: c). auto.
    + exists (y :: p), a', b'. cbn [app]. rewrite A, B. auto.
Qed.
Lemma lex_less_nil_l lt y c : lex_less lt [] (y :: c).
Proof. exists [], [], (y :: c). auto. Qed.
Lemma lex_less_nil_r lt a : ~ lex_less lt a [].
Proof. intros (p & a' & b' & A & B & M). symmetry in B. apply app_eq_nil in B. destruct B as [-> ->]. now destruct a'. Qed.
Lemma cmp_text_lt a : forall c, Forall (code_ok ct) a -> Forall (code_ok ct) c -> (cmp_text a c = (-1)%Z <-> lex_less vlt a c).
Proof.
  induction a as [|x a IH]; intros [|y c] A C; cbn [cmp_text].
  - split; [discriminate|]. intros X. destruct (lex_less_nil_r _ _ X).
  - split; [intros _; apply lex_less_nil_l|reflexivity].
  - split; [discriminate|]. intros X. destruct (lex_less_nil_r _ _ X).
  - inversion A; inversion C; subst. rewrite lex_less_cons. unfold vlt at 1.
    destruct (Z.ltb_spec (char_value ct x) (char_value ct y)); [tauto|].
    destruct (Z.ltb_spec (char_value ct y) (char_value ct x)).
    + split; [discriminate|]. intros [X|[-> _]]; lia.
    + rewrite IH by assumption. split; [intros X; right; split; [apply char_value_inj; auto; lia|assumption]|intros [X|X]; [lia|tauto]].
Qed.
Lemma cmp_text_gt a : forall c, Forall (code_ok ct) a -> Forall (code_ok ct) c -> (cmp_text a c = 1%Z <-> lex_less vlt c a).
Proof.
  induction a as [|x a IH]; intros [|y c] A C; cbn [cmp_text].
  - split; [discriminate|]. intros X. destruct (lex_less_nil_r _ _ X).
  - split; [discriminate|]. intros X. destruct (lex_less_nil_r _ _ X).
  - split; [intros _; apply lex_less_nil_l|reflexivity].
  - inversion A; inversion C; subst. rewrite lex_less_cons. unfold vlt at 1.
    destruct (Z.ltb_spec (char_value ct x) (char_value ct y)); [split; [discriminate|intros [X|[-> _]]; lia]|].
    destruct (Z.ltb_spec (char_value ct y) (char_value ct x)); [tauto|].
    rewrite IH by assumption. split; [intros X; right; split; [apply char_value_inj; auto; lia|assumption]|intros [X|X]; [lia|tauto]].
Qed.
Lemma cmp_text_range a : forall c, (cmp_text a c = -1 \/ cmp_text a c = 0 \/ cmp_text a c = 1)%Z.
Proof.
  induction a as [|x a IH]; intros [|y c]; cbn [cmp_text]; auto.
  destruct (_ <? _)%Z; auto. destruct (_ <? _)%Z; auto.
Qed.
End Compare.

(** * Equality of ranges *)
Lemma list_eqb_spec (a b : list N) : {a = b} + {a <> b}.
Proof. apply list_eq_dec, N.eq_dec. Qed.
Definition same (a b : list N) : bool := if list_eqb_spec a b then true else false.
Lemma same_iff a b : same a b = true <-> a = b.
Proof. unfold same. destruct (list_eqb_spec a b); split; congruence. Qed.
Lemma same_cons x a y b : same (x :: a) (y :: b) = (x =? y) && same a b.
Proof.
  apply Bool.eq_iff_eq_true. rewrite andb_true_iff, !same_iff, N.eqb_eq. split; [intros H; injection H; auto|intros [-> ->]; reflexivity].
Qed.

Lemma equal_loop_ok b f1 f2 n : forall i j x y, sane f1 -> sane f2 -> spot f1 i x -> spot f2 j y ->
  i + N.of_nat n <= lenN (text f1) -> j + N.of_nat n <= lenN (text f2) ->
  equal_loop n b f1 x f2 y = Ok (same (slice (text f1) i (N.of_nat n)) (slice (text f2) j (N.of_nat n))).
Proof.
  induction n as [|n IH]; intros i j x y S T P Q L M; cbn [equal_loop].
  - change (N.of_nat 0) with 0. rewrite !slice_0. f_equal. symmetry. now apply same_iff.
  - destruct (nth_lt (text f1) i ltac:(lia)) as [c Hc]. destruct (nth_lt (text f2) j ltac:(lia)) as [d Hd].
    rewrite (spot_deref b f1 i x c P Hc). cbn [obind]. rewrite (spot_deref b f2 j y d Q Hd). cbn [obind].
    replace (N.of_nat (Datatypes.S n)) with (1 + N.of_nat n) by lia. rewrite (slice_cons _ _ _ c Hc), (slice_cons _ _ _ d Hd), same_cons.
    destruct (c =? d); [|reflexivity]. cbn [andb].
    destruct (spot_inc b f1 i x S P ltac:(lia)) as (x' & -> & P'). cbn [obind].
    destruct (spot_inc b f2 j y T Q ltac:(lia)) as (y' & -> & Q'). cbn [obind].
    apply IH; auto; lia.
Qed.
Lemma slice_len s i n : i + n <= lenN s -> lenN (slice s i n) = n.
Proof. intros H. unfold slice. rewrite lenN_takeN, lenN_dropN. lia. Qed.
Lemma equal_ok b f1 f2 i j n m x x' y y' : sane f1 -> sane f2 -> spot f1 i x -> spot f1 (i + n) x' -> spot f2 j y -> spot f2 (j + m) y' ->
  equal b f1 x x' f2 y y' = Ok (same (slice (text f1) i n) (slice (text f2) j m)).
Proof.
  intros S T P P' Q Q'. unfold equal. rewrite (diff_ok f1 (i + n) i) by now apply spot_wspot.
  rewrite (diff_ok f2 (j + m) j) by now apply spot_wspot.
  pose proof (wspot_le _ _ _ (spot_wspot _ _ _ P')). pose proof (wspot_le _ _ _ (spot_wspot _ _ _ Q')).
  destruct (Z.eqb_spec (Z.of_N (i + n) - Z.of_N i) (Z.of_N (j + m) - Z.of_N j)) as [E|E].
  - assert (m = n) by lia. subst m. rewrite (equal_loop_ok b f1 f2 _ i j x y S T P Q) by lia.
    replace (N.of_nat (Z.to_nat (Z.of_N (i + n) - Z.of_N i))) with n by lia. reflexivity.
  - f_equal. symmetry. apply Bool.not_true_is_false. rewrite same_iff. intros X. apply (f_equal lenN) in X.
    rewrite !slice_len in X by lia. lia.
Qed.

Lemma requal_loop_ok b f1 f2 n : forall i j x y, sane f1 -> sane f2 -> spot f1 (i + N.of_nat n) x -> spot f2 (j + N.of_nat n) y ->
  requal_loop n b f1 x f2 y = Ok (same (slice (text f1) i (N.of_nat n)) (slice (text f2) j (N.of_nat n))).
Proof.
  induction n as [|n IH]; intros i j x y S T P Q; cbn [requal_loop].
  - change (N.of_nat 0) with 0. rewrite !slice_0. f_equal. symmetry. now apply same_iff.
  - pose proof (wspot_le _ _ _ (spot_wspot _ _ _ P)). pose proof (wspot_le _ _ _ (spot_wspot _ _ _ Q)).
    replace (i + N.of_nat (Datatypes.S n)) with (i + N.of_nat n + 1) in * by lia.
    replace (j + N.of_nat (Datatypes.S n)) with (j + N.of_nat n + 1) in * by lia.
    destruct (spot_dec b f1 _ x S P) as (x' & -> & P'). cbn [obind].
    destruct (nth_lt (text f1) (i + N.of_nat n) ltac:(lia)) as [c Hc]. rewrite (spot_deref b f1 _ x' c P' Hc). cbn [obind].
    destruct (spot_dec b f2 _ y T Q) as (y' & -> & Q'). cbn [obind].
    destruct (nth_lt (text f2) (j + N.of_nat n) ltac:(lia)) as [d Hd]. rewrite (spot_deref b f2 _ y' d Q' Hd). cbn [obind].
    assert (G : forall s k e, nth_error s (N.to_nat (k + N.of_nat n)) = Some e ->
      slice s k (N.of_nat (Datatypes.S n)) = slice s k (N.of_nat n) ++ [e]).
    { intros s k e He. unfold slice. replace (N.of_nat (Datatypes.S n)) with (N.of_nat n + 1) by lia. apply takeN_snoc.
      rewrite <- He. rewrite !nth_error_dropN. rewrite dropN_dropN. now rewrite N.add_comm. }
    rewrite (G _ i c Hc), (G _ j d Hd).
    destruct (N.eqb_spec c d) as [->|NE].
    + rewrite (IH i j x' y'); auto. f_equal. apply Bool.eq_iff_eq_true. rewrite !same_iff. split; [now intros ->|intros X; now apply app_inj_tail in X].
    + f_equal. symmetry. apply Bool.not_true_is_false. rewrite same_iff. intros X. apply app_inj_tail in X. tauto.
Qed.

(** * Prefixes and suffixes *)
Lemma whole_slice s : slice s 0 (lenN s) = s. Proof. apply slice_all. Qed.
Lemma prefix_slice p s : lenN p <= lenN s -> (p = slice s 0 (lenN p) <-> prefix_of p s).
Proof.
  intros L. unfold slice. rewrite dropN_0. split.
  - intros E. exists (dropN (lenN p) s). rewrite E at 1. now rewrite takeN_dropN.
  - intros [r ->]. now rewrite takeN_app_exact.
Qed.
Lemma suffix_slice p s : lenN p <= lenN s -> (p = slice s (lenN s - lenN p) (lenN p) <-> suffix_of p s).
Proof.
  intros L. unfold slice. rewrite takeN_all by (rewrite lenN_dropN; lia). split.
  - intros E. exists (takeN (lenN s - lenN p) s). rewrite E at 2. now rewrite takeN_dropN.
  - intros [r ->]. rewrite lenN_app. replace (lenN r + lenN p - lenN p) with (lenN r) by lia. now rewrite dropN_app_exact.
Qed.
Lemma prefix_len p s : prefix_of p s -> lenN p <= lenN s.
Proof. intros [r ->]. rewrite lenN_app. lia. Qed.
Lemma suffix_len p s : suffix_of p s -> lenN p <= lenN s.
Proof. intros [r ->]. rewrite lenN_app. lia. Qed.

Lemma starts_with_ok b fs os : sane fs -> sane os -> fits fs -> 0 < lenN (text fs) ->
  exists r, starts_with b fs os = Ok r /\ (r = true <-> prefix_of (text os) (text fs)).
Proof.
  intros S T F L. unfold starts_with. rewrite !length_of_text. rewrite (proj2 (N.eqb_neq _ 0)) by lia.
  destruct (N.ltb_spec (lenN (text fs)) (lenN (text os))) as [Q|Q].
  - exists false. split; [reflexivity|]. split; [discriminate|]. intros X. apply prefix_len in X. lia.
  - destruct (next_ok b fs 0 _ (lenN (text os)) S (spot_begin fs S) ltac:(lia) F) as (e & -> & P). cbn [obind].
    rewrite (equal_ok b os fs 0 0 (lenN (text os)) (lenN (text os))); auto using spot_begin; [|rewrite N.add_0_l; apply spot_end, T].
    cbn [noexcept]. eexists; split; [reflexivity|]. rewrite same_iff, whole_slice. now apply prefix_slice.
Qed.
Lemma ends_with_ok b fs os : sane fs -> sane os -> fits fs -> 0 < lenN (text fs) ->
  exists r, ends_with b fs os = Ok r /\ (r = true <-> suffix_of (text os) (text fs)).
Proof.
  intros S T F L. unfold ends_with. rewrite !length_of_text. rewrite (proj2 (N.eqb_neq _ 0)) by lia.
  destruct (N.ltb_spec (lenN (text fs)) (lenN (text os))) as [Q|Q].
  - exists false. split; [reflexivity|]. split; [discriminate|]. intros X. apply suffix_len in X. lia.
  - pose proof F as F'. unfold fits in F'. change (2 ^ 63) with 9223372036854775808 in F'. unfold seek_minus, as_ptrdiff.
    rewrite (proj2 (N.ltb_lt _ (2 ^ 63))) by (change (2 ^ 63) with 9223372036854775808; lia).
    change (- 2 ^ 63)%Z with (-9223372036854775808)%Z. rewrite (proj2 (Z.eqb_neq _ _)) by lia.
    destruct (seek_ok b fs _ _ (- Z.of_N (lenN (text os))) S (spot_end fs (proj1 S)) ltac:(lia) F) as (e & -> & P). cbn [obind].
    unfold requal. rewrite (diff_ok os (lenN (text os)) 0), (diff_ok fs (lenN (text fs)) (Z.to_N (Z.of_N (lenN (text fs)) + - Z.of_N (lenN (text os)))));
      auto using spot_wspot, spot_begin, spot_end; try (apply spot_wspot, spot_end; apply S || apply T).
    rewrite (proj2 (Z.eqb_eq _ _)) by lia.
    rewrite (requal_loop_ok b os fs _ 0 (lenN (text fs) - lenN (text os))); auto.
    + cbn [noexcept]. eexists; split; [reflexivity|]. rewrite same_iff.
      replace (N.of_nat (Z.to_nat (Z.of_N (lenN (text os)) - Z.of_N 0))) with (lenN (text os)) by lia.
      rewrite whole_slice. now apply suffix_slice.
    + replace (0 + N.of_nat (Z.to_nat (Z.of_N (lenN (text os)) - Z.of_N 0))) with (lenN (text os)) by lia. apply spot_end, T.
    + replace (lenN (text fs) - lenN (text os) + N.of_nat (Z.to_nat (Z.of_N (lenN (text os)) - Z.of_N 0))) with (lenN (text fs)) by lia. apply spot_end, S.
Qed.

Lemma front_ok b fs c r : sane fs -> text fs = c :: r -> front b fs = Ok c.
Proof.
  intros S E. unfold front. rewrite length_of_text, E. rewrite (proj2 (N.ltb_lt 0 _)) by (rewrite lenN_cons; lia).
  rewrite dassert_true. cbn [obind]. pose proof (sane_length fs S). rewrite (text_split fs 0) in E by assumption. cbn [firstn] in E.
  unfold text at 1 in E. cbn [map concat app] in E. destruct (fchars fs 0) as [|x t] eqn:K; [|cbn [app] in E; now injection E as ->].
  exfalso. destruct (Nat.eq_dec (length fs) 1) as [Y|Y].
  - destruct fs as [|f [|g q]]; cbn [length] in Y; try lia. cbn in E. discriminate.
  - apply (sane_nonempty fs 0 S); [lia|]. unfold flen. now rewrite K.
Qed.
Lemma back_ok b fs c r : fchars fs (length fs - 1) <> [] -> text fs = r ++ [c] -> back b fs = Ok c.
Proof.
  intros NE E. unfold back. rewrite length_of_text, E. rewrite (proj2 (N.ltb_lt 0 _)) by (rewrite lenN_app; change (lenN [c]) with 1; lia).
  rewrite dassert_true. cbn [obind].
  assert (L : (0 < length fs)%nat) by (destruct fs; [now elim NE|cbn [length]; lia]).
  rewrite (text_split fs (length fs - 1)) in E by lia. replace (S (length fs - 1)) with (length fs) in E by lia.
  rewrite skipn_all in E. unfold text at 2 in E. cbn [map concat] in E. rewrite app_nil_r in E.
  destruct (exists_last NE) as (t & x & X). rewrite X in *. rewrite app_assoc in E. apply app_inj_tail in E. destruct E as [_ ->].
  now rewrite rev_app_distr.
Qed.

(** * Positions *)
Lemma subscript_ok b fs i c : sane fs -> fits fs -> nth_error (text fs) (N.to_nat i) = Some c -> subscript b fs i = Ok c.
Proof.
  intros S F E. unfold subscript.
  assert (L : i < lenN (text fs)). { unfold lenN. assert (N.to_nat i < length (text fs))%nat by (apply nth_error_Some; congruence). lia. }
  destruct (next_ok b fs 0 _ i S (spot_begin fs S) ltac:(lia) F) as (it & -> & P). cbn [obind]. rewrite N.add_0_l in P.
  now rewrite (spot_deref b fs i it c P E).
Qed.
Lemma at_ok b fs i : sane fs -> fits fs ->
  at_pos b fs i = match nth_error (text fs) (N.to_nat i) with Some c => Ok c | None => Throw out_of_range end.
Proof.
  intros S F. unfold at_pos. rewrite length_of_text. destruct (N.leb_spec (lenN (text fs)) i) as [L|L].
  - replace (nth_error (text fs) (N.to_nat i)) with (@None N); [reflexivity|]. symmetry. apply nth_error_None. unfold lenN in L. lia.
  - destruct (nth_lt _ _ L) as [c Hc]. rewrite Hc. now apply subscript_ok.
Qed.

(** * find and contains *)
Lemma sv_find_spec c t : match sv_find c t with
  | Some n => nth_error t (N.to_nat n) = Some c /\ forall j, j < n -> nth_error t (N.to_nat j) <> Some c
  | None => ~ In c t end.
Proof.
  induction t as [|x t IH]; cbn [sv_find]; [easy|]. destruct (N.eqb_spec x c) as [->|NE].
  - split; [reflexivity|]. intros j Hj. lia.
  - destruct (sv_find c t) as [n|].
    + destruct IH as [A B]. split; [replace (N.to_nat (n + 1)) with (S (N.to_nat n)) by lia; exact A|].
      intros j Hj. destruct (N.eq_dec j 0) as [->|NZ]; [cbn; congruence|].
      replace (N.to_nat j) with (S (N.to_nat (j - 1))) by lia. cbn [nth_error]. apply B. lia.
    + intros [X|X]; [congruence|auto].
Qed.
Lemma contains_char_ok fs c : contains_char fs c = true <-> In c (text fs).
Proof.
  induction fs as [|f fs IH]; [split; [discriminate|intros []]|].
  cbn [contains_char existsb]. change (existsb _ fs) with (contains_char fs c). rewrite text_cons, in_app_iff, orb_true_iff, IH.
  pose proof (sv_find_spec c (chars f)) as H. destruct (sv_find c (chars f)) as [n|].
  - destruct H as [H _]. apply nth_error_In in H. tauto.
  - split; intros [X|X]; try discriminate; tauto.
Qed.

Definition ch_at (s : list N) (c i : N) : Prop := nth_error s (N.to_nat i) = Some c.
Lemma find_in_ok fs c : forall done, 
  (exists i, find_in fs c done = done + i /\ ch_at (text fs) c i /\ forall j, j < i -> ~ ch_at (text fs) c j) \/
  (find_in fs c done = npos /\ ~ In c (text fs)).
Proof.
  induction fs as [|f fs IH]; intros done; cbn [find_in]; [right; split; [reflexivity|intros []]|].
  pose proof (sv_find_spec c (chars f)) as H. destruct (sv_find c (chars f)) as [n|].
  - left. exists n. split; [reflexivity|]. destruct H as [A B]. unfold ch_at. rewrite text_cons.
    assert (L : (N.to_nat n < length (chars f))%nat) by (apply nth_error_Some; congruence). split.
    + now rewrite nth_error_app1.
    + intros j Hj. rewrite nth_error_app1 by lia. now apply B.
  - destruct (IH (done + lenN (chars f))) as [(i & E & A & B)|[E A]].
    + left. exists (lenN (chars f) + i). split; [rewrite E; lia|]. unfold ch_at in *. rewrite text_cons. split.
      * rewrite nth_error_app2 by (unfold lenN; lia). rewrite <- A. f_equal. unfold lenN. lia.
      * intros j Hj. destruct (N.lt_ge_cases j (lenN (chars f))) as [Q|Q].
        -- rewrite nth_error_app1 by (unfold lenN in Q; lia). intros X. apply nth_error_In in X. auto.
        -- rewrite nth_error_app2 by (unfold lenN in Q; lia). intros X. apply (B (j - lenN (chars f))); [lia|].
           rewrite <- X. f_equal. unfold lenN. lia.
    + right. split; [assumption|]. rewrite text_cons, in_app_iff. tauto.
Qed.

(** the fragment holding a position *)
Lemma seek_fragment_loop_ok fs pos fuel : forall k, (k <= length fs)%nat -> pos < lenN (text fs) ->
  (k = O \/ exists k', k = S k' /\ before fs k' <= pos) -> (length fs - k < fuel)%nat ->
  exists j, seek_fragment_loop fuel fs pos (before fs k) k = Ok (j, before fs j) /\ (j < length fs)%nat /\ before fs j <= pos < before fs (S j).
Proof.
  induction fuel as [|fuel IH]; intros k K L C F; [lia|]. cbn [seek_fragment_loop].
  destruct (N.leb_spec (before fs k) pos) as [Q|Q].
  - assert (k <> length fs) by (intros ->; rewrite before_all in Q; lia).
    rewrite (proj2 (Nat.ltb_lt k (length fs))) by lia. rewrite <- before_S by lia.
    apply IH; [lia|assumption|right; eauto|lia].
  - destruct C as [->|(k' & -> & X)]; [rewrite before_0 in Q; lia|]. exists k'. split; [|lia].
    rewrite before_S by lia. do 2 f_equal. lia.
Qed.
Lemma seek_fragment_ok fs pos : pos < lenN (text fs) -> (pos = 0 -> sane fs) ->
  exists j, seek_fragment fs pos = Ok (j, before fs j) /\ (j < length fs)%nat /\ before fs j <= pos < before fs (S j).
Proof.
  intros L Z. unfold seek_fragment. destruct (N.eqb_spec pos 0) as [->|NZ].
  - exists O. pose proof (Z eq_refl) as S. pose proof (spot_begin fs S) as (A & _ & C). cbn [begin_of it_frag it_off] in *.
    rewrite before_S, before_0 by assumption. split; [reflexivity|]. split; [assumption|].
    destruct C as [C|[C1 C2]]; [lia|]. rewrite <- before_all, <- C1, before_S, before_0 in L by assumption. lia.
  - apply (seek_fragment_loop_ok fs pos _ 0); [lia|assumption|auto|lia].
Qed.
Lemma seek_fragment_past_loop fs pos fuel : forall k, (k <= length fs)%nat -> lenN (text fs) <= pos -> (length fs - k < fuel)%nat ->
  seek_fragment_loop fuel fs pos (before fs k) k = UB.
Proof.
  induction fuel as [|fuel IH]; intros k K L F; [lia|]. cbn [seek_fragment_loop].
  pose proof (before_le fs k (length fs) K ltac:(lia)) as Q. rewrite before_all in Q. rewrite (proj2 (N.leb_le _ _)) by lia.
  destruct (Nat.ltb_spec k (length fs)); [|reflexivity]. rewrite <- before_S by lia. apply IH; lia.
Qed.
Lemma seek_fragment_past fs pos : pos <> 0 -> lenN (text fs) <= pos -> seek_fragment fs pos = UB.
Proof. intros Z L. unfold seek_fragment. rewrite (proj2 (N.eqb_neq pos 0)) by assumption. apply (seek_fragment_past_loop fs pos _ 0); lia. Qed.

Lemma npos_val : npos = 18446744073709551615. Proof. reflexivity. Qed.


Lemma find_char_ok fs c pos : fits fs -> pos < lenN (text fs) -> (pos = 0 -> sane fs) ->
  exists start r, find_char_fs fs c pos = Ok r /\ fragment_start fs pos start /\ first_match (ch_at (text fs) c) start r.
Proof.
  intros F L Z. unfold find_char_fs. rewrite length_of_text, (proj2 (N.leb_gt _ _)) by assumption.
  destruct (seek_fragment_ok fs pos L Z) as (k & -> & K & B). cbn [obind]. rewrite before_S in B by assumption.
  exists (before fs k), (find_in (skipn k fs) c (before fs k)). split; [reflexivity|].
  assert (E : text fs = text (firstn k fs) ++ text (skipn k fs)) by now rewrite <- text_app, firstn_skipn. split.
  - exists (firstn k fs), (nth k fs None), (skipn (S k) fs). split; [now apply nth_split|]. split; [reflexivity|exact B].
  - assert (G : forall j, before fs k <= j -> nth_error (text fs) (N.to_nat j) = nth_error (text (skipn k fs)) (N.to_nat (j - before fs k))).
    { intros j Hj. rewrite E. unfold before, lenN in *. rewrite nth_error_app2 by lia. f_equal. lia. }
    destruct (find_in_ok (skipn k fs) c (before fs k)) as [(i & -> & A & D)|[-> A]]; [left|right].
    + assert (X : before fs k + i < lenN (text fs)).
      { unfold ch_at in A. assert (N.to_nat i < length (text (skipn k fs)))%nat by (apply nth_error_Some; congruence).
        rewrite E, lenN_app. unfold before, lenN. lia. }
      unfold fits in F. change (2 ^ 63) with 9223372036854775808 in F. rewrite npos_val.
      split; [lia|]. split; [lia|]. unfold ch_at in *. split.
      * rewrite G by lia. rewrite <- A. do 2 f_equal. lia.
      * intros j Hj. rewrite G by lia. apply D. lia.
    + split; [reflexivity|]. intros j Hj. unfold ch_at. rewrite G by assumption. intros X. apply nth_error_In in X. auto.
Qed.

Lemma occurs_slice needle s i : i + lenN needle <= lenN s -> (occurs_at needle s i <-> slice s i (lenN needle) = needle).
Proof.
  intros L. split.
  - intros (a & b & -> & <-). unfold slice. rewrite dropN_app_exact by reflexivity. now rewrite takeN_app_exact.
  - intros E. exists (takeN i s), (dropN (i + lenN needle) s). rewrite <- E at 1. unfold slice. rewrite lenN_takeN. split; [|lia].
    replace (dropN (i + lenN needle) s) with (dropN (lenN needle) (dropN i s)) by (rewrite dropN_dropN; f_equal; lia).
    now rewrite !takeN_dropN.
Qed.
Lemma occurs_len needle s i : occurs_at needle s i -> i + lenN needle <= lenN s.
Proof. intros (a & b & -> & <-). rewrite !lenN_app. lia. Qed.

Lemma sane_one sv : sane [Some sv].
Proof. split; [discriminate|constructor]. Qed.
Lemma text_one sv : text [Some sv] = sv.
Proof. unfold text. cbn. apply app_nil_r. Qed.
Lemma spot_end_one sv : spot [Some sv] (lenN sv) (end_of [Some sv]).
Proof. assert (X : spot [Some sv] (lenN (text [Some sv])) (end_of [Some sv])) by (apply spot_end; discriminate). now rewrite text_one in X. Qed.

Lemma find_loop_ok b fs sv fuel : forall i it e, sane fs -> fits fs -> spot fs i it -> spot fs (i + lenN sv) e ->
  (N.to_nat (lenN (text fs) - i) < fuel)%nat ->
  exists r, find_loop fuel b fs sv it e i = Ok r /\ first_match (occurs_at sv (text fs)) i r.
Proof.
  induction fuel as [|fuel IH]; intros i it e S F P Q FU; [lia|]. cbn [find_loop].
  pose proof (wspot_le _ _ _ (spot_wspot _ _ _ Q)) as L.
  rewrite (equal_ok b [Some sv] fs 0 i (lenN sv) (lenN sv)); auto using sane_one, spot_begin;
    [|rewrite N.add_0_l; apply spot_end_one].
  rewrite text_one, whole_slice. cbn [obind].
  destruct (same sv (slice (text fs) i (lenN sv))) eqn:E.
  - apply same_iff in E. exists i. split; [reflexivity|]. left. unfold fits in F. change (2 ^ 63) with 9223372036854775808 in F. rewrite npos_val.
    split; [lia|]. split; [lia|]. split; [apply occurs_slice; auto|intros j Hj; lia].
  - assert (NO : ~ occurs_at sv (text fs) i).
    { rewrite occurs_slice by assumption. intros X. symmetry in X. apply same_iff in X. congruence. }
    rewrite (spot_eq fs _ _ e _ Q (spot_end fs (proj1 S))). destruct (N.eqb_spec (i + lenN sv) (lenN (text fs))) as [X|X].
    + exists npos. split; [reflexivity|]. right. split; [reflexivity|]. intros j Hj O. pose proof (occurs_len _ _ _ O).
      replace j with i in * by lia. contradiction.
    + destruct (spot_inc b fs i it S P ltac:(lia)) as (it' & -> & P'). cbn [obind].
      destruct (spot_inc b fs _ e S Q ltac:(lia)) as (e' & -> & Q'). cbn [obind].
      destruct (IH (i + 1) it' e') as (r & R & M); auto.
      * replace (i + 1 + lenN sv) with (i + lenN sv + 1) by lia. assumption.
      * lia.
      * exists r. split; [assumption|]. destruct M as [(A & B & C & D)|(A & B)]; [left|right].
        -- split; [assumption|]. split; [lia|]. split; [assumption|]. intros j Hj. destruct (N.eq_dec j i) as [->|]; [assumption|apply D; lia].
        -- split; [assumption|]. intros j Hj. destruct (N.eq_dec j i) as [->|]; [assumption|apply B; lia].
Qed.

Lemma find_sv_ok b fs sv pos : sane fs -> fits fs -> pos + lenN sv < size_mod -> pos < lenN (text fs) \/ pos = 0 \/ lenN (text fs) < pos + lenN sv ->
  exists r, find_sv b fs sv pos = Ok r /\ first_match (occurs_at sv (text fs)) pos r.
Proof.
  intros S F W C. unfold find_sv. rewrite length_of_text, sz_add_small by assumption.
  destruct (N.ltb_spec (lenN (text fs)) (pos + lenN sv)) as [L|L].
  - exists npos. split; [reflexivity|]. right. split; [reflexivity|]. intros j Hj O. apply occurs_len in O. lia.
  - rewrite (proj2 (N.ltb_ge _ _)) by lia.
    assert (X : exists k, seek_fragment fs pos = Ok (k, before fs k) /\ spot fs pos (It k (pos - before fs k))).
    { destruct (N.eq_dec pos 0) as [->|NZ].
      - exists O. split; [reflexivity|]. apply (spot_begin fs S).
      - destruct (seek_fragment_ok fs pos ltac:(lia) ltac:(lia)) as (k & E & K & B). exists k. split; [assumption|].
        rewrite before_S in B by assumption. repeat split; cbn [it_frag it_off]; lia. }
    destruct X as (k & -> & P). cbn [obind].
    destruct (next_ok b fs pos _ (lenN sv) S P L F) as (e & -> & Q). cbn [obind].
    destruct (find_loop_ok b fs sv (Datatypes.S (N.to_nat (lenN (text fs)))) pos _ e S F P Q ltac:(lia)) as (r & -> & M).
    exists r. split; [reflexivity|assumption].
Qed.

Lemma contains_sv_ok b fs sv : sane fs -> fits fs -> lenN sv < size_mod ->
  exists r, contains_sv b fs sv = Ok r /\ (r = true <-> occurs sv (text fs)).
Proof.
  intros S F W. unfold contains_sv. destruct (find_sv_ok b fs sv 0 S F ltac:(lia) ltac:(lia)) as (p & -> & M). cbn [obind].
  eexists; split; [reflexivity|]. rewrite negb_true_iff, N.eqb_neq. destruct M as [(A & B & C & D)|(A & B)].
  - split; [intros _; exists p; assumption|auto].
  - split; [congruence|]. intros [i O]. elim (B i); [lia|assumption].
Qed.

Lemma contains_loop_ok b fs os fuel : forall i it last eff, sane fs -> sane os -> fits fs -> lenN (text os) <= lenN (text fs) ->
  spot fs i it -> spot fs (lenN (text fs) - lenN (text os)) last -> eff = lenN (text fs) - i -> i <= lenN (text fs) - lenN (text os) ->
  (N.to_nat eff < fuel)%nat ->
  exists r, contains_loop fuel b fs os it last eff = Ok r /\
    (r = true <-> exists j, i <= j < lenN (text fs) - lenN (text os) /\ occurs_at (text os) (text fs) j).
Proof.
  induction fuel as [|fuel IH]; intros i it last eff S T F W P Q E I FU; [lia|]. cbn [contains_loop].
  rewrite (spot_eq fs _ _ it last P Q). destruct (N.eqb_spec i (lenN (text fs) - lenN (text os))) as [X|X].
  - cbn [negb andb]. exists false. split; [reflexivity|]. split; [discriminate|]. intros (j & Hj & _). lia.
  - rewrite (proj2 (N.eqb_neq eff 0)) by lia. cbn [negb andb]. rewrite length_of_text.
    destruct (next_ok b fs i it (lenN (text os)) S P ltac:(lia) F) as (e & -> & R). cbn [obind].
    rewrite (equal_ok b os fs 0 i (lenN (text os)) (lenN (text os))); auto using spot_begin; [|rewrite N.add_0_l; apply spot_end, T].
    rewrite whole_slice. cbn [obind]. destruct (same (text os) (slice (text fs) i (lenN (text os)))) eqn:K.
    + apply same_iff in K. exists true. split; [reflexivity|]. split; [|reflexivity]. intros _. exists i. split; [lia|].
      apply occurs_slice; [lia|auto].
    + destruct (spot_inc b fs i it S P ltac:(lia)) as (it' & -> & P'). cbn [obind].
      destruct (IH (i + 1) it' last (eff - 1)) as (r & A & B); auto; try lia.
      exists r. split; [assumption|]. rewrite B. split; intros (j & Hj & O); exists j; (split; [|assumption]); [lia|].
      destruct (N.eq_dec j i) as [->|]; [|lia]. apply occurs_slice in O; [|lia]. symmetry in O. apply same_iff in O. congruence.
Qed.
Lemma contains_fs_ok b fs os : sane fs -> sane os -> fits fs ->
  exists r, contains_fs b fs os = Ok r /\
    (r = true <-> exists j, j + lenN (text os) < lenN (text fs) /\ occurs_at (text os) (text fs) j).
Proof.
  intros S T F. unfold contains_fs. rewrite !length_of_text. destruct (N.ltb_spec (lenN (text fs)) (lenN (text os))) as [L|L].
  - exists false. split; [reflexivity|]. split; [discriminate|]. intros (j & Hj & _). lia.
  - destruct (next_ok b fs 0 _ (lenN (text fs) - lenN (text os)) S (spot_begin fs S) ltac:(lia) F) as (last & -> & Q). cbn [obind].
    rewrite N.add_0_l in Q.
    destruct (contains_loop_ok b fs os (Datatypes.S (N.to_nat (lenN (text fs)))) 0 (begin_of fs) last (lenN (text fs))) as (r & -> & B);
      auto using spot_begin; try lia.
    exists r. split; [reflexivity|]. rewrite B. split; intros (j & Hj & O); exists j; (split; [lia|assumption]).
Qed.

(** * substr and copy *)
Lemma substr_ok b fs pos count : sane fs -> fits fs -> pos < lenN (text fs) -> pos + count < size_mod \/ count = npos ->
  substr b fs pos count = Ok (slice (text fs) pos count).
Proof.
  intros S F L W. unfold substr. rewrite length_of_text, (proj2 (N.leb_gt _ _)) by assumption.
  pose proof F as F'. unfold fits in F'. change (2 ^ 63) with 9223372036854775808 in F'.
  destruct (next_ok b fs 0 _ pos S (spot_begin fs S) ltac:(lia) F) as (it & E & P). rewrite N.add_0_l in P.
  assert (X : exists e n, (if (count =? npos) || (lenN (text fs) <=? sz_add pos count) then Ok (end_of fs) else next b fs (begin_of fs) (sz_add pos count)) = Ok e
    /\ spot fs (pos + n) e /\ slice (text fs) pos count = slice (text fs) pos n).
  { destruct ((count =? npos) || (lenN (text fs) <=? sz_add pos count)) eqn:C.
    - exists (end_of fs), (lenN (text fs) - pos). replace (pos + (lenN (text fs) - pos)) with (lenN (text fs)) by lia.
      split; [reflexivity|]. split; [apply spot_end, S|].
      assert (lenN (text fs) <= pos + count).
      { apply orb_true_iff in C. destruct C as [C|C].
        - apply N.eqb_eq in C. rewrite npos_val in C. lia.
        - apply N.leb_le in C. destruct W as [W|W]; [rewrite sz_add_small in C by assumption; assumption|rewrite npos_val in W; lia]. }
      unfold slice. rewrite !takeN_all by (rewrite lenN_dropN; lia). reflexivity.
    - apply orb_false_iff in C. destruct C as [C D]. apply N.eqb_neq in C. apply N.leb_gt in D.
      destruct W as [W|W]; [|contradiction]. rewrite sz_add_small in * by assumption.
      destruct (next_ok b fs 0 _ (pos + count) S (spot_begin fs S) ltac:(lia) F) as (e & G & Q). rewrite N.add_0_l in Q.
      exists e, count. auto. }
  destruct X as (e & n & -> & Q & ->). cbn [obind]. rewrite E. cbn [obind].
  rewrite (diff_ok fs (pos + n) pos) by now apply spot_wspot. rewrite (proj2 (Z.ltb_ge _ _)) by lia.
  apply collect_ok; auto. pose proof (wspot_le _ _ _ (spot_wspot _ _ _ Q)). lia.
Qed.

Lemma copy_n_ok b fs n : forall i it dest pos, sane fs -> spot fs i it -> i + N.of_nat n <= lenN (text fs) -> pos + N.of_nat n <= lenN dest ->
  copy_n n b fs it dest pos = Ok (overlay dest pos (slice (text fs) i (N.of_nat n))).
Proof.
  induction n as [|n IH]; intros i it dest pos S P L D; cbn [copy_n].
  - change (N.of_nat 0) with 0. rewrite slice_0, overlay_nil by lia. reflexivity.
  - destruct (nth_lt (text fs) i ltac:(lia)) as [c Hc]. rewrite (spot_deref b fs i it c P Hc). cbn [obind].
    rewrite store_ok by lia. cbn [obind]. destruct (spot_inc b fs i it S P ltac:(lia)) as (it' & -> & P'). cbn [obind].
    change (takeN pos dest ++ c :: dropN (pos + 1) dest) with (overlay dest pos [c]).
    assert (LC : lenN [c] = 1) by reflexivity.
    rewrite (IH (i + 1)); auto; [|lia|rewrite overlay_length by lia; lia]. f_equal.
    replace (N.of_nat (Datatypes.S n)) with (1 + N.of_nat n) by lia. rewrite (slice_cons _ _ _ c Hc).
    rewrite <- LC at 1. rewrite (overlay_app dest pos [c] (slice (text fs) (i + 1) (N.of_nat n))) by (rewrite slice_len by lia; lia). reflexivity.
Qed.
Lemma copy_n_ub b fs n : forall i it dest pos, sane fs -> spot fs i it -> i + N.of_nat n <= lenN (text fs) -> pos <= lenN dest < pos + N.of_nat n ->
  copy_n n b fs it dest pos = UB.
Proof.
  induction n as [|n IH]; intros i it dest pos S P L D; cbn [copy_n]; [lia|].
  destruct (nth_lt (text fs) i ltac:(lia)) as [c Hc]. rewrite (spot_deref b fs i it c P Hc). cbn [obind].
  destruct (N.eq_dec pos (lenN dest)) as [->|NE]; [now rewrite store_ub by lia|].
  rewrite store_ok by lia. cbn [obind]. destruct (spot_inc b fs i it S P ltac:(lia)) as (it' & -> & P'). cbn [obind].
  change (takeN pos dest ++ c :: dropN (pos + 1) dest) with (overlay dest pos [c]). assert (LC : lenN [c] = 1) by reflexivity.
  apply (IH (i + 1)); auto; [lia|]. rewrite overlay_length by lia. lia.
Qed.
Lemma slice_min s pos count : pos <= lenN s -> slice s pos (N.min count (lenN s - pos)) = slice s pos count.
Proof.
  intros L. unfold slice. destruct (N.le_ge_cases count (lenN s - pos)).
  - now rewrite N.min_l by assumption.
  - rewrite N.min_r by assumption. rewrite !takeN_all by (rewrite lenN_dropN; lia). reflexivity.
Qed.
Lemma copy_ok b fs dest count pos : sane fs -> fits fs -> pos < lenN (text fs) -> N.min count (lenN (text fs) - pos) <= lenN dest ->
  copy b fs dest count pos = Ok (slice (text fs) pos count ++ dropN (N.min count (lenN (text fs) - pos)) dest, N.min count (lenN (text fs) - pos)).
Proof.
  intros S F L D. unfold copy. rewrite length_of_text, (proj2 (N.leb_gt _ _)) by assumption.
  destruct (next_ok b fs 0 _ pos S (spot_begin fs S) ltac:(lia) F) as (it & -> & P). cbn [obind]. rewrite N.add_0_l in P.
  rewrite (copy_n_ok b fs _ pos it dest 0) by (auto; lia). cbn [obind]. rewrite N2Nat.id, slice_min by lia.
  unfold overlay. rewrite takeN_0, N.add_0_l. cbn [app]. rewrite <- (slice_min (text fs) pos count) at 2 by lia. rewrite slice_len by lia. reflexivity.
Qed.
Lemma copy_ub b fs dest count pos : sane fs -> fits fs -> pos < lenN (text fs) -> lenN dest < N.min count (lenN (text fs) - pos) ->
  copy b fs dest count pos = UB.
Proof.
  intros S F L D. unfold copy. rewrite length_of_text, (proj2 (N.leb_gt _ _)) by assumption.
  destruct (next_ok b fs 0 _ pos S (spot_begin fs S) ltac:(lia) F) as (it & -> & P). cbn [obind]. rewrite N.add_0_l in P.
  rewrite (copy_n_ub b fs _ pos it dest 0) by (auto; lia). reflexivity.
Qed.

Lemma substr_wrap b fs pos count : sane fs -> fits fs -> pos < lenN (text fs) -> count < npos -> size_mod <= pos + count -> substr b fs pos count = UB.
Proof.
  intros S F L C W. unfold substr. rewrite length_of_text, (proj2 (N.leb_gt _ _)) by assumption.
  pose proof F as F'. unfold fits in F'. change (2 ^ 63) with 9223372036854775808 in F'.
  assert (E : sz_add pos count = pos + count - size_mod).
  { unfold sz_add. rewrite size_mod_val in *. rewrite npos_val in C. symmetry. apply (N.mod_unique _ _ 1); lia. }
  rewrite npos_val in C. rewrite size_mod_val in *. rewrite E.
  rewrite npos_val, (proj2 (N.eqb_neq count _)), (proj2 (N.leb_gt _ _)) by lia. cbn [orb].
  destruct (next_ok b fs 0 _ (pos + count - 18446744073709551616) S (spot_begin fs S) ltac:(lia) F) as (e & -> & Q). cbn [obind].
  destruct (next_ok b fs 0 _ pos S (spot_begin fs S) ltac:(lia) F) as (it & -> & P). cbn [obind].
  rewrite (diff_ok fs _ _ e it (spot_wspot _ _ _ Q) (spot_wspot _ _ _ P)). rewrite (proj2 (Z.ltb_lt _ _)) by lia. reflexivity.
Qed.
Lemma find_sv_outside b fs sv pos : pos <> 0 -> lenN (text fs) <= pos -> sz_add pos (lenN sv) <= lenN (text fs) -> lenN sv <= lenN (text fs) ->
  find_sv b fs sv pos = UB.
Proof.
  intros Z L W V. unfold find_sv. rewrite length_of_text, (proj2 (N.ltb_ge _ _)), (proj2 (N.ltb_ge _ _)) by assumption.
  now rewrite seek_fragment_past.
Qed.

(** * Fragment strings with an empty fragment before the last one *)
Definition failure {A} (b : build) : outcome A := match b with Release => UB | DebugAbort => Terminate | DebugThrow => Throw logic_error end.

Lemma not_sane_split fs : fs <> [] -> ~ sane fs -> exists k, (S k < length fs)%nat /\ flen fs k = 0 /\ forall j, (j < k)%nat -> flen fs j <> 0.
Proof.
  intros NE NS.
  assert (G : forall n, (n < length fs)%nat -> (forall j, (j < n)%nat -> flen fs j <> 0) \/
     exists k, (k < n)%nat /\ flen fs k = 0 /\ forall j, (j < k)%nat -> flen fs j <> 0).
  { induction n as [|n IH]; intros L; [left; lia|]. destruct (IH ltac:(lia)) as [A|(k & K)].
    - destruct (N.eq_dec (flen fs n) 0) as [E|E].
      + right. exists n. repeat split; auto; lia.
      + left. intros j Hj. destruct (Nat.eq_dec j n) as [->|]; [assumption|apply A; lia].
    - right. exists k. intuition lia. }
  assert (L : (0 < length fs)%nat) by (destruct fs; [congruence|cbn [length]; lia]).
  destruct (G (length fs - 1)%nat ltac:(lia)) as [A|(k & K & E & J)].
  - exfalso. apply NS. split; [assumption|]. apply Forall_forall. intros f I X.
    destruct (In_nth (removelast fs) f (None : fragment) I) as (j & Hj & Hn).
    assert (R : forall (l : frags) j, (j < length (removelast l))%nat -> nth j l None = nth j (removelast l) None /\ (S j < length l)%nat).
    { clear. induction l as [|x l IH]; intros j Hj; [cbn in Hj; lia|]. destruct l as [|y l]; [cbn in Hj; lia|].
      change (removelast (x :: y :: l)) with (x :: removelast (y :: l)) in *. cbn [length] in Hj. destruct j as [|j].
      - split; [reflexivity|]. cbn [length]. lia.
      - destruct (IH j ltac:(lia)) as [P Q]. cbn [nth length] in *. split; [exact P|lia]. }
    destruct (R fs j Hj) as [P Q]. apply (A j); [lia|]. unfold flen, fchars. rewrite P. rewrite Hn, X. reflexivity.
  - exists k. repeat split; auto. lia.
Qed.
Lemma collect_empty_fragment b fs k fuel : forall it, (S k < length fs)%nat -> flen fs k = 0 -> (forall j, (j < k)%nat -> flen fs j <> 0) ->
  (it_frag it <= k)%nat -> (it_off it < flen fs (it_frag it) \/ it_frag it = k /\ it_off it = 0) ->
  (N.to_nat (before fs k) < N.to_nat (before fs (it_frag it) + it_off it) + fuel)%nat ->
  collect fuel b fs it (end_of fs) = failure b.
Proof.
  induction fuel as [|fuel IH]; intros [j o] K E J L C F; cbn [it_frag it_off] in *.
  - exfalso. destruct C as [C|[-> ->]]; [|lia]. assert (j <> k) by (intros ->; lia).
    pose proof (before_le fs (S j) k ltac:(lia) ltac:(lia)) as Q. rewrite before_S in Q by lia. lia.
  - cbn [collect]. assert (NE : it_eq (It j o) (end_of fs) = false).
    { unfold it_eq, end_of. cbn [it_frag it_off]. now rewrite (proj2 (Nat.eqb_neq j _)) by lia. }
    rewrite NE.
    unfold it_deref. cbn [it_frag it_off]. rewrite (proj2 (Nat.ltb_lt j (length fs))) by lia. cbn [andb].
    destruct C as [C|[-> ->]].
    + rewrite (proj2 (N.ltb_lt _ _) C), dassert_true. cbn [obind].
      destruct (nth_error (fchars fs j) (N.to_nat o)) as [c|] eqn:X; [|apply nth_error_None in X; unfold flen, lenN in C; lia]. cbn [obind].
      unfold it_inc. cbn [it_frag it_off]. rewrite (proj2 (Nat.eqb_neq (S j) _)) by lia. cbn [andb negb]. rewrite dassert_true. cbn [obind].
      rewrite (proj2 (N.leb_gt _ _)) by assumption.
      assert (j <> k) by (intros ->; lia).
      destruct (N.eqb_spec (o + 1) (flen fs j)) as [Y|Y]; cbn [obind].
      * rewrite (IH (It (S j) 0)); cbn [it_frag it_off]; auto; [now destruct b|lia| |].
        -- destruct (Nat.eq_dec (S j) k) as [Z|Z]; [right; auto|left]. specialize (J (S j) ltac:(lia)). lia.
        -- rewrite before_S by lia. lia.
      * rewrite (IH (It j (o + 1))); cbn [it_frag it_off]; auto; [now destruct b|left; lia|lia].
    + rewrite E. change (0 <? 0) with false. assert (X : fchars fs k = []) by (now apply lenN_0). rewrite X. now destruct b.
Qed.
Lemma walk_not_sane b fs : fs <> [] -> ~ sane fs -> walk b fs = failure b.
Proof.
  intros NE NS. destruct (not_sane_split fs NE NS) as (k & K & E & J). unfold walk. rewrite length_of_text.
  apply (collect_empty_fragment b fs k); auto; cbn [begin_of it_frag it_off]; [lia| |].
  - destruct k as [|k]; [auto|]. left. specialize (J O ltac:(lia)). lia.
  - rewrite before_0. pose proof (before_le fs k (length fs) ltac:(lia) ltac:(lia)) as Q. rewrite before_all in Q. lia.
Qed.

(** * Streaming *)
Lemma print_plain fill fs : print 0 fill fs = text fs.
Proof.
  induction fs as [|f fs IH]; [reflexivity|]. cbn [print]. rewrite IH. unfold insert_text. rewrite N.sub_0_l. reflexivity.
Qed.
Lemma find_char_start fs c : fits fs -> 0 < lenN (text fs) ->
  exists r, find_char_fs fs c 0 = Ok r /\ first_match (ch_at (text fs) c) 0 r.
Proof.
  intros F L. unfold find_char_fs. rewrite length_of_text, (proj2 (N.leb_gt _ _)) by assumption. unfold seek_fragment. cbn [N.eqb obind skipn].
  eexists; split; [reflexivity|]. destruct (find_in_ok fs c 0) as [(i & -> & A & B)|[-> A]]; [left|right].
  - assert (i < lenN (text fs)). { unfold ch_at in A. assert (N.to_nat i < length (text fs))%nat by (apply nth_error_Some; congruence). unfold lenN. lia. }
    unfold fits in F. change (2 ^ 63) with 9223372036854775808 in F. rewrite npos_val, N.add_0_l.
    split; [lia|]. split; [lia|]. split; [assumption|]. intros j Hj. apply B. lia.
  - split; [reflexivity|]. intros j _ X. apply nth_error_In in X. auto.
Qed.
