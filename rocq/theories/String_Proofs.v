(** Proofs about split, join, trim and strip. *)
From Coq Require Import List. Import ListNotations.
From Verif Require Import Base BaseFacts String_Model String_Spec.

(** * split *)
Fixpoint tokens (d : N) (s : list N) : list (list N) :=
  match s with
  | [] => [[]]
  | c :: r => if c =? d then [] :: tokens d r
              else match tokens d r with t :: ts => (c :: t) :: ts | [] => [] end
  end.
Definition kept (b : split_behaviour) (ts : list (list N)) : list (list N) :=
  match b with keep_empty => ts | drop_empty => filter not_empty ts end.

Lemma tokens_cons d s : exists t ts, tokens d s = t :: ts.
Proof.
  induction s as [|c r (t & ts & IH)]; cbn [tokens]; [eauto|]. destruct (c =? d); [eauto|]. rewrite IH. eauto.
Qed.

Lemma find_char_spec d s : let (a, b) := find_char d s in
  s = a ++ b /\ ~ In d a /\ (b = [] /\ tokens d s = [a] \/ exists r, b = d :: r /\ tokens d s = a :: tokens d r).
Proof.
  induction s as [|c r IH]; cbn [find_char tokens]; [repeat split; auto|].
  destruct (N.eqb_spec c d) as [->|E].
  - split; [reflexivity|]. split; [auto|]. right. eauto.
  - destruct (find_char d r) as [a b]. destruct IH as (S & I & H). split; [now rewrite S|].
    split; [intros [?|?]; auto|].
    destruct H as [[-> ->]|(r' & -> & ->)]; [left; auto|right; eauto].
Qed.

Lemma skip_char_spec d s : exists k, s = repeat d k ++ skip_char d s.
Proof.
  induction s as [|c r (k & IH)]; cbn [skip_char]; [exists O; reflexivity|].
  destruct (N.eqb_spec c d) as [->|E]; cbn [negb]; [|exists O; reflexivity].
  exists (S k). cbn [repeat app]. now rewrite <- IH.
Qed.

Lemma tokens_skip d k s : filter not_empty (tokens d (repeat d k ++ s)) = filter not_empty (tokens d s).
Proof. induction k as [|k IH]; [reflexivity|]. cbn [repeat app tokens]. rewrite N.eqb_refl. exact IH. Qed.

Lemma advance_spec d b r :
  kept b (tokens d (advance_past_delimiter (d :: r) d b)) = kept b (tokens d r) /\
  (exists p, d :: r = p ++ advance_past_delimiter (d :: r) d b /\ p <> []).
Proof.
  destruct b; unfold advance_past_delimiter, kept.
  - split; [reflexivity|]. exists [d]. split; [reflexivity|discriminate].
  - cbn [skip_char]. rewrite N.eqb_refl. cbn [negb]. destruct (skip_char_spec d r) as [k E]. split.
    + rewrite E at 2. now rewrite tokens_skip.
    + exists (d :: repeat d k). split; [now rewrite E at 1|discriminate].
Qed.


Lemma split_loop_char s0 alloc d b fuel : forall str out,
  (length (v_chars str) < fuel)%nat -> v_pos str <= lenN s0 -> v_chars str = dropN (v_pos str) s0 ->
  exists toks, map v_chars toks = kept b (tokens d (v_chars str)) /\ views_of s0 (v_pos str) toks /\
    split_loop fuel alloc str d b out =
      if forallb alloc (seq (length out) (length toks)) then Ok (out ++ toks) else Throw bad_alloc.
Proof.
  induction fuel as [|fuel IH]; intros str out F P D; [lia|]. cbn [split_loop]. unfold first_token.
  pose proof (find_char_spec d (v_chars str)) as H. destruct (find_char d (v_chars str)) as [a rest].
  destruct H as (E & NI & H).
  set (tok := View (v_pos str) a).
  set (wanted := match b with keep_empty => true | drop_empty => match v_chars tok with [] => false | _ => true end end).
  assert (TV : forall vs, views_of s0 (v_pos str + lenN a) vs -> views_of s0 (v_pos str) (if wanted then tok :: vs else vs)).
  { assert (LA : v_pos str + lenN a <= lenN s0).
    { apply (f_equal lenN) in D. rewrite lenN_dropN, E, lenN_app in D. lia. }
    intros vs V. destruct wanted eqn:W.
    - cbn [views_of v_pos v_chars tok]. split; [lia|]. split; [assumption|]. split; [|assumption].
      rewrite <- D, E. symmetry. now apply takeN_app_exact.
    - unfold wanted in W. destruct b; [discriminate|]. cbn [v_chars tok] in W. destruct a; [|discriminate].
      rewrite lenN_nil, N.add_0_r in V. exact V. }
  assert (KT : forall ts, kept b (a :: ts) = if wanted then a :: kept b ts else kept b ts).
  { intros ts. unfold wanted, kept, tok. destruct b; [reflexivity|]. cbn [v_chars filter]. unfold not_empty. now destruct a. }
  cbv zeta. fold wanted.
  assert (ST : (let! out' := (if wanted then if alloc (length out) then Ok (out ++ [tok]) else Throw bad_alloc else Ok out)
                in Ok out') = if forallb alloc (seq (length out) (if wanted then 1 else 0)%nat)
                              then Ok (if wanted then out ++ [tok] else out) else Throw bad_alloc).
  { destruct wanted; cbn [seq forallb]; [|reflexivity]. destruct (alloc (length out)); reflexivity. }
  destruct H as [[-> T]|(r & -> & T)].
  - exists (if wanted then [tok] else []). rewrite T, KT. split; [destruct wanted, b; reflexivity|].
    split; [apply (TV []); exact I|].
      destruct wanted; cbn [length seq forallb]; [|cbn [obind]; now rewrite app_nil_r].
      destruct (alloc (length out)); reflexivity.
  - destruct (advance_spec d b r) as [A (p & EP & NP)]. set (next := advance_past_delimiter (d :: r) d b) in *.
    set (rem := View (v_pos str + (lenN (v_chars str) - lenN next)) next).
    assert (LP : v_pos rem = v_pos str + lenN a + lenN p).
    { cbn [v_pos rem]. rewrite E, lenN_app, EP, lenN_app. lia. }
    specialize (IH rem (if wanted then out ++ [tok] else out)). destruct IH as (vs & M & V & IH).
    + assert (length p <> 0)%nat by (destruct p; [congruence|discriminate]).
      cbn [v_chars rem]. apply (f_equal (@length N)) in E, EP. rewrite app_length in E, EP. lia.
    + rewrite LP. apply (f_equal lenN) in D. rewrite lenN_dropN, E, EP, !lenN_app in D. 
      assert (lenN p <> 0) by (intros Z; apply lenN_0 in Z; auto). lia.
    + rewrite LP. replace (v_pos str + lenN a + lenN p) with ((lenN a + lenN p) + v_pos str) by lia.
      rewrite <- dropN_dropN, <- D, E, EP, app_assoc, <- lenN_app. cbn [v_chars rem]. symmetry. now apply dropN_app_exact.
    + exists (if wanted then tok :: vs else vs). split; [|split].
      * rewrite T, KT, <- A. cbn [v_chars rem] in M. destruct wanted; cbn [map]; now rewrite M.
      * apply TV. rewrite LP in V. clear - V. revert V. generalize (v_pos str + lenN a). intros x.
        destruct vs; [auto|]. cbn [views_of]. intros (?&?&?&?). repeat split; auto. lia.
      * fold rem. destruct wanted; cbn [obind].
        -- cbn [length seq forallb]. destruct (alloc (length out)); cbn [obind andb]; [|reflexivity].
           rewrite IH, app_length. cbn [length]. rewrite Nat.add_1_r, <- app_assoc. reflexivity.
        -- apply IH.
Qed.

Lemma split_to_char alloc s d b : exists toks,
  map v_chars toks = kept b (tokens d s) /\ views_of s 0 toks /\
  split_to alloc s d b = if forallb alloc (seq 0 (length toks)) then Ok toks else Terminate.
Proof.
  destruct (split_loop_char s alloc d b (S (length s)) (View 0 s) []) as (toks & M & V & E).
  - cbn [v_chars]. lia.
  - cbn [v_pos]. lia.
  - cbn [v_chars v_pos]. now rewrite dropN_0.
  - exists toks. split; [exact M|]. split; [exact V|]. unfold split_to. rewrite E. cbn [length].
    destruct (forallb alloc (seq 0 (length toks))); reflexivity.
Qed.

Lemma split_char alloc s d b :
  split alloc s d b = if forallb alloc (seq 0 (length (kept b (tokens d s)))) then Ok (kept b (tokens d s)) else Terminate.
Proof.
  destruct (split_to_char alloc s d b) as (toks & M & _ & E). unfold split. rewrite E, <- M, map_length.
  destruct (forallb alloc (seq 0 (length toks))); reflexivity.
Qed.

Lemma split_ok s d b : split (fun _ => true) s d b = Ok (kept b (tokens d s)).
Proof.
  rewrite split_char. replace (forallb _ _) with true; [reflexivity|]. symmetry. apply forallb_forall. auto.
Qed.

Lemma tokens_joined d s : joined d (tokens d s) = s.
Proof.
  induction s as [|c r IH]; [reflexivity|]. cbn [tokens]. destruct (tokens_cons d r) as (t & ts & E).
  destruct (N.eqb_spec c d) as [->|N].
  - cbn [joined]. rewrite E in *. cbn [app]. now rewrite IH.
  - rewrite E in *. cbn [joined] in *. destruct ts; [now rewrite IH|]. cbn [app]. now rewrite IH.
Qed.

Lemma tokens_app d t r : ~ In d t -> tokens d (t ++ d :: r) = t :: tokens d r.
Proof.
  induction t as [|c t IH]; cbn [app tokens]; intros NI; [now rewrite N.eqb_refl|].
  cbn [In] in NI. rewrite (proj2 (N.eqb_neq c d)) by tauto. rewrite IH by tauto. reflexivity.
Qed.
Lemma tokens_free d t : ~ In d t -> tokens d t = [t].
Proof.
  induction t as [|c t IH]; cbn [tokens]; intros NI; [reflexivity|].
  cbn [In] in NI. rewrite (proj2 (N.eqb_neq c d)) by tauto. rewrite IH by tauto. reflexivity.
Qed.
Lemma joined_tokens d ts : ts <> [] -> Forall (fun t => ~ In d t) ts -> tokens d (joined d ts) = ts.
Proof.
  induction ts as [|t ts IH]; [congruence|]. intros _ F. inversion F; subst. cbn [joined].
  destruct ts as [|u ts]; [now apply tokens_free|]. rewrite tokens_app by assumption. f_equal. apply IH; [discriminate|assumption].
Qed.
Lemma tokens_no_delim d s : Forall (fun t => ~ In d t) (tokens d s).
Proof.
  induction s as [|c r IH]; cbn [tokens]; [repeat constructor; auto|]. destruct (N.eqb_spec c d).
  - constructor; auto.
  - destruct (tokens d r); inversion IH; subst; constructor; auto. intros [?|?]; auto.
Qed.
Lemma tokens_count d s : lenN (tokens d s) = count_char d s + 1.
Proof.
  induction s as [|c r IH]; [reflexivity|]. unfold count_char in *. cbn [tokens filter]. rewrite (N.eqb_sym d c).
  destruct (c =? d); [rewrite !lenN_cons; lia|]. rewrite <- IH. destruct (tokens_cons d r) as (t & ts & ->). reflexivity.
Qed.

Lemma c_text_spec t rest : ~ In 0 t -> c_text (t ++ 0 :: rest) = Ok t.
Proof.
  induction t as [|c t IH]; cbn [app c_text]; intros NI; [reflexivity|]. cbn [In] in NI.
  rewrite (proj2 (N.eqb_neq c 0)) by tauto. now rewrite IH by tauto.
Qed.

(** * join *)
Lemma store_ok out pos c : pos < lenN out -> store out pos c = Ok (takeN pos out ++ c :: dropN (pos + 1) out).
Proof. intros H. unfold store. now rewrite (proj2 (N.ltb_lt _ _)) by lia. Qed.
Lemma store_ub out pos c : lenN out <= pos -> store out pos c = UB.
Proof. intros H. unfold store. now rewrite (proj2 (N.ltb_ge _ _)) by lia. Qed.

Definition overlay (out : list N) (pos : N) (t : list N) : list N := takeN pos out ++ t ++ dropN (pos + lenN t) out.
Lemma overlay_length out pos t : pos + lenN t <= lenN out -> lenN (overlay out pos t) = lenN out.
Proof. intros H. unfold overlay. rewrite !lenN_app, lenN_takeN, lenN_dropN. lia. Qed.
Lemma overlay_app out pos a b : pos + lenN a + lenN b <= lenN out ->
  overlay (overlay out pos a) (pos + lenN a) b = overlay out pos (a ++ b).
Proof.
  intros H. unfold overlay. assert (L : lenN (takeN pos out ++ a) = pos + lenN a) by (rewrite lenN_app, lenN_takeN; lia).
  rewrite (app_assoc (takeN pos out) a). rewrite takeN_app_exact by now rewrite L.
  rewrite dropN_app. rewrite L. rewrite (dropN_all (pos + lenN a + lenN b)) by (rewrite L; lia).
  cbn [app]. rewrite dropN_dropN, <- !app_assoc, lenN_app. do 4 f_equal. lia.
Qed.

Lemma copy_chars_ok t : forall out pos, pos + lenN t <= lenN out ->
  copy_chars t out pos = Ok (overlay out pos t, pos + lenN t).
Proof.
  induction t as [|c t IH]; intros out pos H; cbn [copy_chars].
  - unfold overlay. rewrite lenN_nil, N.add_0_r. cbn [app]. now rewrite takeN_dropN.
  - rewrite lenN_cons in H. rewrite store_ok by lia. cbn [obind].
    change (takeN pos out ++ c :: dropN (pos + 1) out) with (overlay out pos [c]).
    assert (L1 : lenN [c] = 1) by reflexivity.
    rewrite IH by (rewrite overlay_length; rewrite ?L1; lia).
    change 1 with (lenN [c]) at 1. rewrite overlay_app by (rewrite L1; lia). cbn [app]. do 2 f_equal. rewrite lenN_cons. lia.
Qed.
Lemma copy_chars_ub t : forall out pos, pos <= lenN out -> lenN out < pos + lenN t -> copy_chars t out pos = UB.
Proof.
  induction t as [|c t IH]; intros out pos P H; cbn [copy_chars]; rewrite ?lenN_nil, ?lenN_cons in H; [lia|].
  destruct (N.lt_ge_cases pos (lenN out)).
  - rewrite store_ok by lia. cbn [obind].
    change (takeN pos out ++ c :: dropN (pos + 1) out) with (overlay out pos [c]).
    assert (L1 : lenN [c] = 1) by reflexivity.
    apply IH; rewrite overlay_length; rewrite ?L1; lia.
  - now rewrite store_ub by lia.
Qed.

Definition tail (d : N) (ts : list (list N)) : list N := flat_map (fun t => d :: t) ts.
Lemma joined_tail d t ts : joined d (t :: ts) = t ++ tail d ts.
Proof.
  revert t. induction ts as [|u ts IH]; intros t; cbn [tail flat_map].
  - cbn [joined]. now rewrite app_nil_r.
  - change (joined d (t :: u :: ts)) with (t ++ d :: joined d (u :: ts)). rewrite IH. reflexivity.
Qed.
Lemma overlay_nil out pos : pos <= lenN out -> overlay out pos [] = out.
Proof. intros _. unfold overlay. rewrite lenN_nil, N.add_0_r. cbn [app]. apply takeN_dropN. Qed.

Lemma join_rest_char ts d : forall out pos, pos <= lenN out ->
  join_rest ts d out pos = if pos + lenN (tail d ts) <=? lenN out then Ok (overlay out pos (tail d ts)) else UB.
Proof.
  induction ts as [|t ts IH]; intros out pos P.
  - cbn [join_rest tail flat_map]. rewrite lenN_nil, (proj2 (N.leb_le _ _)) by lia. now rewrite overlay_nil.
  - cbn [join_rest tail flat_map app]. fold (tail d ts). rewrite lenN_cons, lenN_app.
    assert (L1 : lenN [d] = 1) by reflexivity.
    destruct (N.lt_ge_cases pos (lenN out)) as [Q|Q].
    2:{ rewrite store_ub by lia. rewrite (proj2 (N.leb_gt _ _)) by lia. reflexivity. }
    rewrite store_ok by lia. cbn [obind].
    change (takeN pos out ++ d :: dropN (pos + 1) out) with (overlay out pos [d]).
    destruct (N.le_gt_cases (pos + 1 + lenN t) (lenN out)) as [R|R].
    + rewrite copy_chars_ok by (rewrite overlay_length; rewrite ?L1; lia). cbn [obind].
      change 1 with (lenN [d]) at 1. rewrite overlay_app by (rewrite L1; lia). rewrite IH.
      2:{ rewrite overlay_length; rewrite ?lenN_app, ?L1; lia. }
      rewrite overlay_length by (rewrite lenN_app, L1; lia).
      replace (pos + 1 + lenN t + lenN (tail d ts)) with (pos + (1 + (lenN t + lenN (tail d ts)))) by lia.
      destruct (N.leb_spec (pos + (1 + (lenN t + lenN (tail d ts)))) (lenN out)) as [X|X]; [|reflexivity]. f_equal.
      replace (pos + 1 + lenN t) with (pos + lenN ([d] ++ t)) by (rewrite lenN_app, L1; lia).
      rewrite overlay_app by (rewrite lenN_app, L1; lia). now rewrite <- app_assoc.
    + rewrite copy_chars_ub by (rewrite overlay_length; rewrite ?L1; lia).
      rewrite (proj2 (N.leb_gt _ _)) by lia. reflexivity.
Qed.

Lemma sum_lengths_char ts : forall c, sum_lengths c ts mod size_mod = (c + fold_right (fun t n => lenN t + n) 0 ts) mod size_mod
  /\ (c < size_mod -> sum_lengths c ts < size_mod).
Proof.
  induction ts as [|t ts IH]; intros c; cbn [sum_lengths fold_right]; [now rewrite N.add_0_r|].
  destruct (IH (sz_add c (lenN t))) as [A B]. split.
  - rewrite A. unfold sz_add. rewrite N.add_mod_idemp_l by (rewrite size_mod_val; lia). f_equal. lia.
  - intros _. apply B. apply sz_add_lt.
Qed.

Lemma joined_lengthN d ts : lenN (joined d ts) = joined_length ts.
Proof.
  unfold joined_length. induction ts as [|t ts IH]; [reflexivity|]. destruct ts as [|u ts].
  - cbn [joined fold_right]. change (lenN [t]) with 1. lia.
  - change (joined d (t :: u :: ts)) with (t ++ d :: joined d (u :: ts)). rewrite lenN_app, lenN_cons, IH.
    cbn [fold_right]. rewrite !lenN_cons. lia.
Qed.

Lemma mod_pred_add a b m : 0 < m -> 1 <= b -> ((a mod m + b mod m) mod m + m - 1 mod m) mod m = (a + (b - 1)) mod m.
Proof.
  intros M B. rewrite <- N.add_mod by lia. destruct (N.eq_dec m 1) as [->|]; [now rewrite !N.mod_1_r|].
  rewrite (N.mod_small 1) by lia. replace (a + b) with (1 + (a + (b - 1))) at 1 by lia.
  replace ((1 + (a + (b - 1))) mod m + m - 1) with ((1 + (a + (b - 1))) mod m + (m - 1)) by lia.
  rewrite N.add_mod_idemp_l by lia. replace (1 + (a + (b - 1)) + (m - 1)) with (a + (b - 1) + 1 * m) by lia.
  now rewrite N.mod_add by lia.
Qed.

Lemma join_char max_size ts d : (2 <= length ts)%nat ->
  join max_size ts d =
    let size := joined_length ts mod size_mod in
    if max_size <? size then Throw length_error
    else if size <? joined_length ts then UB else Ok (joined d ts).
Proof.
  intros L. destruct ts as [|t [|u ts]]; cbn [length] in L; try lia. unfold join.
  set (all := t :: u :: ts). remember (u :: ts) as r. 
  assert (S : sz_sub (sz_add (sum_lengths 0 all) (lenN all mod size_mod)) 1 = joined_length all mod size_mod).
  { destruct (sum_lengths_char all 0) as [A B]. unfold sz_sub, sz_add, joined_length.
    rewrite <- (N.mod_small _ _ (B ltac:(rewrite size_mod_val; lia))), A.
    rewrite N.add_0_l. apply mod_pred_add; [rewrite size_mod_val; lia|]. unfold all. rewrite lenN_cons. lia. }
  rewrite S. clear S. cbv zeta. set (size := joined_length all mod size_mod).
  destruct (max_size <? size); [reflexivity|].
  assert (SL : lenN (repeat 0 (N.to_nat size)) = size) by (rewrite lenN_repeat; lia).
  assert (JL : joined_length all = lenN t + lenN (tail d r)).
  { rewrite <- (joined_lengthN d). unfold all. now rewrite joined_tail, lenN_app. }
  assert (LE : size <= joined_length all) by (apply N.mod_le; rewrite size_mod_val; lia).
  destruct (N.le_gt_cases (lenN t) size) as [Q|Q].
  - rewrite copy_chars_ok by (rewrite SL; lia). cbn [obind]. rewrite N.add_0_l.
    rewrite join_rest_char by (rewrite overlay_length; rewrite SL; lia).
    rewrite overlay_length by (rewrite SL; lia). rewrite SL, <- JL.
    destruct (N.leb_spec (joined_length all) size).
    + rewrite (proj2 (N.ltb_ge _ _)) by lia. f_equal.
      rewrite <- (N.add_0_l (lenN t)). rewrite overlay_app by (rewrite SL; lia).
      unfold overlay. rewrite takeN_0, dropN_all by (rewrite SL, lenN_app; lia). cbn [app]. rewrite app_nil_r.
      unfold all. now rewrite joined_tail.
    + now rewrite (proj2 (N.ltb_lt _ _)) by lia.
  - rewrite copy_chars_ub by (rewrite SL; lia). cbn [obind]. now rewrite (proj2 (N.ltb_lt _ _)) by lia.
Qed.

Lemma join_ok max_size ts d : joined_length ts <= max_size -> max_size < size_mod -> join max_size ts d = Ok (joined d ts).
Proof.
  intros H M. destruct ts as [|t [|u ts]]; [reflexivity|reflexivity|]. rewrite join_char by (cbn [length]; lia).
  cbv zeta. rewrite N.mod_small by lia. rewrite !(proj2 (N.ltb_ge _ _)) by lia. reflexivity.
Qed.

(** * trim *)
Lemma space_dec ct white c : testable ct c ->
  exists b, std_isspace ct white c = Ok b /\ (b = true <-> space_in ct white c).
Proof.
  unfold testable, std_isspace, space_in. destruct ct as [[]|]; intros T.
  - destruct (N.ltb_spec c 128).
    + exists (white c). split; [reflexivity|]. split; [split; [auto|lia]|tauto].
    + destruct (N.eqb_spec c 255); [|lia]. exists false. split; [reflexivity|]. split; [discriminate|lia].
  - exists (white c). tauto.
  - exists (white c). tauto.
Qed.
Lemma space_ub ct white c : ~ testable ct c -> std_isspace ct white c = UB.
Proof.
  unfold testable, std_isspace. destruct ct as [[]|]; intros T; [|tauto|tauto].
  rewrite (proj2 (N.ltb_ge _ _)) by lia. now rewrite (proj2 (N.eqb_neq _ _)) by tauto.
Qed.
Lemma testable_dec ct c : testable ct c \/ ~ testable ct c.
Proof. unfold testable. destruct ct as [[]|]; lia. Qed.

Lemma trim_left_char ct white s :
  match trim_left ct white s with
  | Ok t => trimmed_left ct white s t /\ (forall c r, t = c :: r -> testable ct c)
  | UB => untestable_left ct white s
  | _ => False
  end.
Proof.
  induction s as [|c r IH]; cbn [trim_left].
  - split; [|discriminate]. exists []. split; [reflexivity|]. split; [constructor|]. intros (c & r & E & _). discriminate.
  - unfold is_not_whitespace. destruct (testable_dec ct c) as [T|T].
    + destruct (space_dec ct white c T) as ([] & E & B); rewrite E; cbn [obind negb].
      * destruct (trim_left ct white r); try contradiction.
        -- destruct IH as [(cut & E1 & A1 & S1) TT]. split; [|assumption]. exists (c :: cut). split; [now rewrite E1|].
           split; [constructor; [now apply B|assumption]|assumption].
        -- destruct IH as (x & y & z & E1 & A1 & N1). exists (c :: x), y, z. split; [now rewrite E1|].
           split; [constructor; [now apply B|assumption]|assumption].
      * split.
        -- exists []. split; [reflexivity|]. split; [constructor|]. intros (c' & r' & E' & S'). injection E' as <- <-.
           apply B in S'. discriminate.
        -- intros c' r' E'. injection E' as <- <-. assumption.
    + rewrite space_ub by assumption. cbn [obind]. exists [], c, r. repeat split; [constructor|assumption].
Qed.

Lemma trimmed_left_unique ct white s t u : trimmed_left ct white s t -> trimmed_left ct white s u -> t = u.
Proof.
  intros (a & -> & A & NT) (b & E & B & NU). revert b B E.
  induction A as [|x a X A IH]; intros [|y b] B E; cbn [app] in E.
  - assumption.
  - exfalso. apply NT. exists y, (b ++ u). split; [assumption|]. now inversion B.
  - exfalso. apply NU. exists x, (a ++ t). split; [congruence|]. assumption.
  - inversion B; subst. apply (IH b); auto. congruence.
Qed.

Lemma space_testable ct white c : space_in ct white c -> testable ct c.
Proof. unfold space_in, testable. destruct ct as [[]|]; tauto. Qed.

Lemma untestable_not_trimmed ct white s t : untestable_left ct white s -> trimmed_left ct white s t ->
  (forall c r, t = c :: r -> testable ct c) -> False.
Proof.
  intros (a & c & b & E & A & NT) (cut & E2 & A2 & NS) TT. subst s. revert a A E2.
  induction cut as [|x cut IH]; intros a A E.
  - cbn [app] in E. destruct a as [|y a]; cbn [app] in E.
    + apply NT. eapply TT. symmetry. exact E.
    + apply NS. exists y, (a ++ c :: b). split; [now symmetry|now inversion A].
  - inversion A2; subst. destruct a as [|y a]; cbn [app] in E; injection E as E1 E2.
    + subst. apply NT. eapply space_testable; eassumption.
    + inversion A; subst. eapply IH; eauto.
Qed.

Lemma trim_left_ub_iff ct white s : trim_left ct white s = UB <-> untestable_left ct white s.
Proof.
  pose proof (trim_left_char ct white s) as H. destruct (trim_left ct white s); try contradiction.
  - split; [discriminate|]. intros U. exfalso. destruct H as [H1 H2]. eapply untestable_not_trimmed; eauto.
  - tauto.
Qed.

Lemma all_space_rev ct white s : all_space ct white s -> all_space ct white (rev s).
Proof. apply Forall_rev. Qed.
Lemma starts_rev ct white s : starts_with_space ct white (rev s) <-> ends_with_space ct white s.
Proof.
  split.
  - intros (c & r & E & S). exists c, (rev r). split; [|assumption]. rewrite <- (rev_involutive s), E. reflexivity.
  - intros (c & r & -> & S). exists c, (rev r). split; [|assumption]. now rewrite rev_app_distr.
Qed.
Lemma trimmed_rev ct white s t : trimmed_left ct white (rev s) (rev t) <-> trimmed_right ct white s t.
Proof.
  split.
  - intros (cut & E & A & NS). exists (rev cut). split; [|split; [now apply all_space_rev|now rewrite <- starts_rev]].
    rewrite <- (rev_involutive s), E, rev_app_distr, rev_involutive. reflexivity.
  - intros (cut & -> & A & NS). exists (rev cut). split; [now rewrite rev_app_distr|].
    split; [now apply all_space_rev|now rewrite starts_rev].
Qed.
Lemma untestable_rev ct white s : untestable_left ct white (rev s) <-> untestable_right ct white s.
Proof.
  split.
  - intros (a & c & b & E & A & NT). exists (rev b), c, (rev a). split; [|split; [now apply all_space_rev|assumption]].
    rewrite <- (rev_involutive s), E, rev_app_distr. cbn [rev]. now rewrite <- app_assoc.
  - intros (a & c & b & -> & A & NT). exists (rev b), c, (rev a). split; [|split; [now apply all_space_rev|assumption]].
    rewrite rev_app_distr. cbn [rev]. now rewrite <- app_assoc.
Qed.

Lemma trim_right_char ct white s :
  match trim_right ct white s with
  | Ok t => trimmed_right ct white s t /\ (forall c r, t = r ++ [c] -> testable ct c)
  | UB => untestable_right ct white s
  | _ => False
  end.
Proof.
  unfold trim_right. pose proof (trim_left_char ct white (rev s)) as H.
  destruct (trim_left ct white (rev s)) as [t| | | |]; try contradiction; cbn [obind].
  - destruct H as [H T]. split.
    + apply trimmed_rev. now rewrite rev_involutive.
    + intros c r E. apply (T c (rev r)). rewrite <- (rev_involutive t), E, rev_app_distr. reflexivity.
  - now apply untestable_rev.
Qed.
Lemma trim_right_ub_iff ct white s : trim_right ct white s = UB <-> untestable_right ct white s.
Proof.
  rewrite <- untestable_rev, <- trim_left_ub_iff. unfold trim_right. destruct (trim_left ct white (rev s)); cbn [obind]; split; congruence.
Qed.

Lemma trim_left_ok ct white s : Forall (testable ct) s -> exists t, trim_left ct white s = Ok t /\ trimmed_left ct white s t.
Proof.
  intros F. pose proof (trim_left_char ct white s) as H. destruct (trim_left ct white s); try contradiction.
  - exists a. tauto.
  - destruct H as (x & c & y & -> & _ & NT). apply Forall_app in F. destruct F as [_ F]. inversion F. contradiction.
Qed.
Lemma trim_right_ok ct white s : Forall (testable ct) s -> exists t, trim_right ct white s = Ok t /\ trimmed_right ct white s t.
Proof.
  intros F. unfold trim_right. apply Forall_rev in F. destruct (trim_left_ok ct white _ F) as (t & -> & T).
  exists (rev t). split; [reflexivity|]. apply trimmed_rev. now rewrite rev_involutive.
Qed.

Lemma trim_left_idem ct white s t : trim_left ct white s = Ok t -> trim_left ct white t = Ok t.
Proof.
  induction s as [|c r IH]; cbn [trim_left]; [intros H; injection H as <-; reflexivity|].
  destruct (is_not_whitespace ct white c) as [[]| | | |] eqn:E; cbn [obind]; try discriminate; [|apply IH].
  intros H. injection H as <-. cbn [trim_left]. now rewrite E.
Qed.
Lemma trim_right_idem ct white s t : trim_right ct white s = Ok t -> trim_right ct white t = Ok t.
Proof.
  unfold trim_right. destruct (trim_left ct white (rev s)) as [u| | | |] eqn:E; cbn [obind]; try discriminate.
  intros H. injection H as <-. rewrite rev_involutive, (trim_left_idem _ _ _ _ E). reflexivity.
Qed.

(** * strip *)
Lemma stripped_of ct white s t u : trimmed_right ct white s t -> trimmed_left ct white t u -> stripped ct white s u.
Proof.
  intros (b & -> & B & NE) (a & -> & A & NS). exists a, b. rewrite <- app_assoc. repeat split; auto.
  intros (c & r & -> & S). apply NE. exists c, (a ++ r). split; [now rewrite app_assoc|assumption].
Qed.
Lemma stripped_of' ct white s t u : trimmed_left ct white s t -> trimmed_right ct white t u -> stripped ct white s u.
Proof.
  intros (a & -> & A & NS) (b & -> & B & NE). exists a, b. repeat split; auto.
  intros (c & r & -> & S). apply NS. exists c, (r ++ b). split; [reflexivity|assumption].
Qed.

Lemma strip_char ct white s :
  match strip ct white s with
  | Ok t => stripped ct white s t
  | UB => untestable_left ct white s \/ untestable_right ct white s
  | _ => False
  end.
Proof.
  unfold strip. pose proof (trim_right_char ct white s) as H. destruct (trim_right ct white s) as [t| | | |]; try contradiction; cbn [obind].
  - destruct H as [R _]. pose proof (trim_left_char ct white t) as H. destruct (trim_left ct white t) as [u| | | |]; try contradiction.
    + destruct H as [L _]. eapply stripped_of; eauto.
    + left. destruct R as (cut & -> & _ & _). destruct H as (a & c & b & -> & A & NT). exists a, c, (b ++ cut).
      rewrite <- app_assoc. auto.
  - auto.
Qed.

Lemma stripped_unique ct white s t u : stripped ct white s t -> stripped ct white s u -> t = u.
Proof.
  intros (a & b & E & A & B & S & NE) (a' & b' & E' & A' & B' & S' & NE').
  assert (G : forall x y (t u : list N), ~ starts_with_space ct white t -> ~ starts_with_space ct white u ->
     all_space ct white x -> all_space ct white y -> x ++ t = y ++ u -> t = u).
  { clear. intros x y t u NT NU X Y E. eapply (trimmed_left_unique ct white (x ++ t)).
    - exists x. auto.
    - exists y. auto. }
  destruct t as [|c t].
  - (* everything is space *)
    assert (AS : all_space ct white s) by (rewrite E; cbn [app]; apply Forall_app; auto).
    destruct u as [|d u]; [reflexivity|]. exfalso. apply S'. exists d, u. split; [reflexivity|].
    rewrite E' in AS. apply Forall_app in AS. destruct AS as [_ AS]. now inversion AS.
  - destruct u as [|d u].
    + exfalso. assert (AS : all_space ct white s) by (rewrite E'; cbn [app]; apply Forall_app; auto).
      apply S. exists c, t. split; [reflexivity|]. rewrite E in AS. apply Forall_app in AS. destruct AS as [_ AS]. now inversion AS.
    + assert (Q : (c :: t) ++ b = (d :: u) ++ b').
      { apply (G a a').
        - intros (x & y & Z & SP). apply S. injection Z as <- <-. now exists c, t.
        - intros (x & y & Z & SP). apply S'. injection Z as <- <-. now exists d, u.
        - assumption.
        - assumption.
        - now rewrite <- E. }
      assert (Q' : rev b ++ rev (c :: t) = rev b' ++ rev (d :: u)) by (rewrite <- !rev_app_distr; now f_equal).
      apply (G (rev b) (rev b')) in Q'.
      * rewrite <- (rev_involutive (c :: t)), Q', rev_involutive. reflexivity.
      * now rewrite starts_rev.
      * now rewrite starts_rev.
      * now apply all_space_rev.
      * now apply all_space_rev.
Qed.

Lemma strip_ok ct white s : Forall (testable ct) s ->
  exists t, strip ct white s = Ok t /\ stripped ct white s t /\
    (let! u := trim_left ct white s in trim_right ct white u) = Ok t /\ strip ct white t = Ok t.
Proof.
  intros F.
  assert (G : forall s, Forall (testable ct) s -> exists t, strip ct white s = Ok t /\ stripped ct white s t).
  { clear. intros s F. unfold strip. destruct (trim_right_ok ct white s F) as (t & -> & T). cbn [obind].
    assert (F' : Forall (testable ct) t).
    { destruct T as (cut & -> & _). now apply Forall_app in F. }
    destruct (trim_left_ok ct white t F') as (u & -> & U). exists u. split; [reflexivity|]. eapply stripped_of; eauto. }
  destruct (G s F) as (t & E & T). exists t. split; [assumption|]. split; [assumption|]. split.
  - destruct (trim_left_ok ct white s F) as (u & -> & U). cbn [obind].
    assert (F' : Forall (testable ct) u).
    { destruct U as (cut & -> & _). now apply Forall_app in F. }
    destruct (trim_right_ok ct white u F') as (w & -> & W). f_equal.
    eapply stripped_unique; [eapply stripped_of'; eauto|assumption].
  - assert (F' : Forall (testable ct) t).
    { destruct T as (x & y & -> & _). apply Forall_app in F. destruct F as [_ F]. now apply Forall_app in F. }
    destruct (G t F') as (w & -> & W). f_equal. symmetry. eapply stripped_unique; [|exact W].
    destruct T as (x & y & _ & _ & _ & NS & NE). exists [], []. rewrite app_nil_r. repeat split; auto; constructor.
Qed.

Lemma strip_ub ct white s : untestable_right ct white s -> strip ct white s = UB.
Proof. intros U. unfold strip. now rewrite (proj2 (trim_right_ub_iff ct white s) U). Qed.

Lemma app_mid (t cut a : list N) c b : t ++ cut = a ++ c :: b -> ~ In c cut -> exists b', t = a ++ c :: b'.
Proof.
  revert a. induction t as [|x t IH]; intros a E NI.
  - cbn [app] in E. exfalso. apply NI. rewrite E. apply in_elt.
  - destruct a as [|y a]; cbn [app] in E; injection E as -> E.
    + now exists t.
    + destruct (IH a E NI) as (b' & ->). now exists b'.
Qed.

Lemma strip_ub_iff ct white s : strip ct white s = UB <-> untestable_left ct white s \/ untestable_right ct white s.
Proof.
  split.
  - pose proof (strip_char ct white s) as H. intros E. now rewrite E in H.
  - intros [U|U]; [|now apply strip_ub].
    unfold strip. pose proof (trim_right_char ct white s) as H. destruct (trim_right ct white s) as [t| | | |]; try contradiction; [|reflexivity].
    cbn [obind]. apply trim_left_ub_iff. destruct H as [(cut & -> & C & _) _]. destruct U as (a & c & b & E & A & NT).
    destruct (app_mid _ _ _ _ _ E) as (b' & ->).
    + intros I. apply NT. eapply space_testable. exact (proj1 (Forall_forall _ _) C _ I).
    + now exists a, c, b'.
Qed.

(** * Theorem bodies *)
Lemma split_then_join max_size s d ts : lenN s <= max_size -> max_size < size_mod ->
  split (fun _ => true) s d keep_empty = Ok ts -> join max_size ts d = Ok s.
Proof.
  intros L M. rewrite split_ok. cbn [kept]. intros H. injection H as <-.
  pose proof (tokens_joined d s) as J. rewrite join_ok; [now rewrite J| |assumption].
  rewrite <- (joined_lengthN d), J. assumption.
Qed.
Lemma join_then_split max_size ts d s : ts <> [] -> Forall (fun t => ~ In d t) ts ->
  joined_length ts <= max_size -> max_size < size_mod -> join max_size ts d = Ok s ->
  split (fun _ => true) s d keep_empty = Ok ts.
Proof.
  intros NE F L M. rewrite join_ok by assumption. intros H. injection H as <-. rewrite split_ok. cbn [kept].
  now rewrite joined_tokens.
Qed.
Lemma split_drop_keep s d : exists ts,
  split (fun _ => true) s d keep_empty = Ok ts /\ split (fun _ => true) s d drop_empty = Ok (filter not_empty ts).
Proof. exists (tokens d s). now rewrite !split_ok. Qed.
Lemma split_total alloc s d b :
  (exists ts, split (fun _ => true) s d b = Ok ts /\ Forall (fun t => ~ In d t) ts /\
     (b = keep_empty -> lenN ts = count_char d s + 1) /\
     split alloc s d b = (if forallb alloc (seq 0 (length ts)) then Ok ts else Terminate)).
Proof.
  exists (kept b (tokens d s)). split; [apply split_ok|]. split; [|split; [|apply split_char]].
  - pose proof (tokens_no_delim d s) as F. destruct b; cbn [kept]; [assumption|].
    apply Forall_forall. intros t I. apply filter_In in I. exact (proj1 (Forall_forall _ _) F t (proj1 I)).
  - intros ->. apply tokens_count.
Qed.
Lemma split_views alloc s d b vs : split_to alloc s d b = Ok vs ->
  views_of s 0 vs /\ split alloc s d b = Ok (map v_chars vs).
Proof.
  intros E. split; [|unfold split; now rewrite E].
  destruct (split_to_char alloc s d b) as (toks & _ & V & E'). rewrite E' in E.
  destruct (forallb alloc (seq 0 (length toks))); [injection E as <-; exact V|discriminate].
Qed.
Lemma split_pointers alloc d b t rest : ~ In 0 t ->
  split_to_ptr alloc None d b = Ok [] /\ split_ptr alloc None = Ok [] /\
  split_to_ptr alloc (Some (t ++ 0 :: rest)) d b = split_to alloc t d b /\
  split_ptr alloc (Some (t ++ 0 :: rest)) = split alloc t 32 drop_empty.
Proof. intros NI. unfold split_to_ptr, split_ptr. now rewrite c_text_spec. Qed.

Lemma join_exact max_size ts d : max_size < size_mod ->
  (joined_length ts <= max_size -> join max_size ts d = Ok (joined d ts) /\ lenN (joined d ts) = joined_length ts) /\
  ((2 <= length ts)%nat -> max_size < joined_length ts < size_mod -> join max_size ts d = Throw length_error).
Proof.
  intros M. split.
  - intros L. split; [now apply join_ok|apply joined_lengthN].
  - intros T L. rewrite join_char by assumption. cbv zeta. rewrite N.mod_small by lia. now rewrite (proj2 (N.ltb_lt _ _)) by lia.
Qed.
Lemma join_wraps max_size ts d : (2 <= length ts)%nat -> size_mod <= joined_length ts ->
  joined_length ts mod size_mod <= max_size -> join max_size ts d = UB.
Proof.
  intros L B M. rewrite join_char by assumption. cbv zeta. rewrite (proj2 (N.ltb_ge _ _)) by lia.
  rewrite (proj2 (N.ltb_lt _ _)); [reflexivity|]. pose proof (N.mod_lt (joined_length ts) size_mod). rewrite size_mod_val in *. lia.
Qed.
Lemma join_too_long max_size ts d : (2 <= length ts)%nat -> size_mod <= joined_length ts ->
  join max_size ts d = if joined_length ts mod size_mod <=? max_size then UB else Throw length_error.
Proof.
  intros L B. destruct (N.leb_spec (joined_length ts mod size_mod) max_size); [now apply join_wraps|].
  rewrite join_char by assumption. cbv zeta. now rewrite (proj2 (N.ltb_lt _ _)) by assumption.
Qed.
Lemma trim_pointers ct white t rest : ~ In 0 t ->
  trim_left_ptr ct white (t ++ 0 :: rest) = trim_left ct white t /\
  trim_right_ptr ct white (t ++ 0 :: rest) = trim_right ct white t /\
  strip_ptr ct white (t ++ 0 :: rest) = strip ct white t.
Proof. intros NI. unfold trim_left_ptr, trim_right_ptr, strip_ptr. now rewrite c_text_spec. Qed.
Lemma trim_exact ct white s :
  match trim_left ct white s with
  | Ok t => trimmed_left ct white s t /\ ~ untestable_left ct white s /\ trim_left ct white t = Ok t
  | UB => untestable_left ct white s | _ => False end /\
  match trim_right ct white s with
  | Ok t => trimmed_right ct white s t /\ ~ untestable_right ct white s /\ trim_right ct white t = Ok t
  | UB => untestable_right ct white s | _ => False end.
Proof.
  split.
  - pose proof (trim_left_char ct white s) as H. pose proof (trim_left_ub_iff ct white s) as U.
    pose proof (trim_left_idem ct white s) as I.
    destruct (trim_left ct white s); try contradiction; [|assumption].
    split; [tauto|]. split; [|auto]. rewrite <- U. discriminate.
  - pose proof (trim_right_char ct white s) as H. pose proof (trim_right_ub_iff ct white s) as U.
    pose proof (trim_right_idem ct white s) as I.
    destruct (trim_right ct white s); try contradiction; [|assumption].
    split; [tauto|]. split; [|auto]. rewrite <- U. discriminate.
Qed.
Lemma trim_refuted white : exists s, Forall (fun c => c < 256) s /\
  trim_left (CChar true) white s = UB /\ trim_right (CChar true) white s = UB /\ strip (CChar true) white s = UB.
Proof. exists [0xE9]. split; [repeat constructor|]. repeat split. Qed.
Lemma strip_exact ct white s :
  match strip ct white s with
  | Ok t => stripped ct white s t /\ (forall u, stripped ct white s u -> u = t)
  | UB => untestable_left ct white s \/ untestable_right ct white s
  | _ => False
  end.
Proof.
  pose proof (strip_char ct white s) as H. destruct (strip ct white s); try contradiction; [|assumption].
  split; [assumption|]. intros u U. eapply stripped_unique; eauto.
Qed.
Lemma join_wraps_witness max_size d : 2 ^ 62 <= max_size ->
  exists ts, Forall (fun t => lenN t <= max_size) ts /\ join max_size ts d = UB.
Proof.
  intros M. set (t := repeat 0 (N.to_nat (2 ^ 62))). exists [t; t; t; t].
  assert (L : lenN t = 2 ^ 62) by (unfold t; rewrite lenN_repeat; apply N2Nat.id).
  split; [repeat constructor; rewrite L; assumption|].
  assert (J : joined_length [t; t; t; t] = size_mod + 3).
  { unfold joined_length. cbn [fold_right]. change (lenN [t; t; t; t]) with 4. rewrite L. reflexivity. }
  apply join_wraps; [cbn [length]; lia|rewrite J; lia|]. rewrite J. change ((size_mod + 3) mod size_mod) with 3.
  change (2 ^ 62) with 4611686018427387904 in M. lia.
Qed.

(** ** strip in the other order *)
Lemma strip_rev ct white s : (let! u := trim_left ct white s in trim_right ct white u) = (let! t := strip ct white (rev s) in Ok (rev t)).
Proof.
  unfold strip, trim_right. rewrite rev_involutive. destruct (trim_left ct white s) as [u| | | |]; cbn [obind]; reflexivity.
Qed.
Lemma stripped_rev ct white s t : stripped ct white (rev s) (rev t) -> stripped ct white s t.
Proof.
  intros (a & b & E & A & B & S & N). exists (rev b), (rev a). split.
  - rewrite <- (rev_involutive s), E, !rev_app_distr, rev_involutive. now rewrite app_assoc.
  - split; [now apply all_space_rev|]. split; [now apply all_space_rev|]. rewrite starts_rev in S. split; [|exact S].
    intros X. apply N. apply starts_rev. now rewrite rev_involutive.
Qed.
Lemma untestable_rev' ct white s : untestable_right ct white (rev s) <-> untestable_left ct white s.
Proof. rewrite <- untestable_rev. now rewrite rev_involutive. Qed.
Lemma strip_either_order ct white s : (let! u := trim_left ct white s in trim_right ct white u) = strip ct white s.
Proof.
  rewrite strip_rev. pose proof (strip_char ct white s) as A. pose proof (strip_char ct white (rev s)) as B.
  pose proof (strip_ub_iff ct white s) as U. pose proof (strip_ub_iff ct white (rev s)) as W.
  rewrite untestable_rev, untestable_rev' in W.
  destruct (strip ct white (rev s)) as [t| | | |]; try contradiction; destruct (strip ct white s) as [u| | | |]; try contradiction; cbn [obind].
  - f_equal. eapply stripped_unique; [|exact A]. apply stripped_rev. now rewrite rev_involutive.
  - exfalso. destruct W as [_ W]. specialize (W ltac:(tauto)). discriminate.
  - exfalso. destruct U as [_ U]. specialize (U ltac:(tauto)). discriminate.
  - reflexivity.
Qed.
Lemma strip_idempotent ct white s t : strip ct white s = Ok t -> strip ct white t = Ok t.
Proof.
  intros E. pose proof E as E'. rewrite <- strip_either_order in E. unfold strip in E'.
  destruct (trim_right ct white s) as [u| | | |]; try discriminate. cbn [obind] in E'.
  destruct (trim_left ct white s) as [v| | | |]; try discriminate. cbn [obind] in E.
  unfold strip. rewrite (trim_right_idem _ _ _ _ E). cbn [obind]. exact (trim_left_idem _ _ _ _ E').
Qed.
Lemma strip_laws ct white s : (let! u := trim_left ct white s in trim_right ct white u) = strip ct white s /\
  (let! t := trim_right ct white s in trim_left ct white t) = strip ct white s /\
  (let! t := strip ct white s in strip ct white t) = strip ct white s.
Proof.
  split; [apply strip_either_order|]. split; [reflexivity|]. destruct (strip ct white s) as [t| | | |] eqn:E; try reflexivity. cbn [obind]. exact (strip_idempotent _ _ _ _ E).
Qed.
Lemma strip_refuted white : exists s, Forall (fun c => c < 256) s /\ strip (CChar true) white s = UB.
Proof. destruct (trim_refuted white) as (s & A & _ & _ & B). eauto. Qed.
