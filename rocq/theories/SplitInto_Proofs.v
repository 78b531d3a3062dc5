From Coq Require Import List. Import ListNotations.
From Verif Require Import Base BaseFacts String_Model String_Spec String_Proofs Sv_Model Coll_Spec Sv_Proofs SplitInto_Model SplitInto_Spec.

Definition push_all {C} (push : C -> view -> outcome C) (toks : list view) (out : C) : outcome C :=
  fold_left (fun o v => let! c := o in push c v) toks (Ok out).

Lemma push_all_stuck {C} (push : C -> view -> outcome C) toks : forall o, (forall c, o <> Ok c) ->
  fold_left (fun o v => let! c := o in push c v) toks o = o.
Proof.
  induction toks as [|t r IH]; intros o H; [reflexivity|]. cbn [fold_left].
  replace (let! c := o in push c t) with o by (destruct o; [edestruct H; reflexivity|reflexivity|reflexivity|reflexivity|reflexivity]).
  now apply IH.
Qed.

Lemma push_all_cons {C} (push : C -> view -> outcome C) t r c :
  push_all push (t :: r) c = let! c' := push c t in push_all push r c'.
Proof.
  unfold push_all. cbn [fold_left obind]. destruct (push c t) as [c'| | | |]; cbn [obind]; [reflexivity| | | |]; apply push_all_stuck; discriminate.
Qed.

Lemma into_loop_char {C} (push : C -> view -> outcome C) d b fuel : forall str out all c,
  split_loop fuel (fun _ => true) str d b out = Ok all ->
  exists toks, all = out ++ toks /\ into_loop push fuel str d b c = push_all push toks c.
Proof.
  induction fuel as [|fuel IH]; intros str out all c E; cbn [split_loop into_loop] in *; [discriminate|].
  destruct (first_token str d b) as [[tok rem] go].
  destruct (match b with keep_empty => true | drop_empty => match v_chars tok with [] => false | _ => true end end); cbn [obind] in *.
  - destruct go.
    + specialize (fun c' => IH rem (out ++ [tok]) all c' E).
      destruct (IH c) as (toks & -> & _). exists (tok :: toks). split; [now rewrite <- app_assoc|].
      rewrite push_all_cons. destruct (push c tok) as [c'| | | |]; cbn [obind]; try reflexivity.
      destruct (IH c') as (toks' & E' & I'). apply app_inv_head in E'. now subst toks'.
    + injection E as <-. exists [tok]. split; [reflexivity|]. rewrite push_all_cons. reflexivity.
  - destruct go; [now apply IH|]. injection E as <-. exists []. split; [now rewrite app_nil_r|reflexivity].
Qed.

Lemma copies_dec f : copies f \/ ~ copies f.
Proof. destruct f as [k|]; cbn [copies]; [destruct (N.le_gt_cases 2 k); [left|right]; lia|now left]. Qed.

Section P.
Context {V : Type} (cap : N) (conv : view -> V) (fails : N -> option N).
Hypothesis SMALL : cap < 2 ^ 63.
Notation R := (R cap).

Lemma sv_push_char v l t : R v l ->
  (lenN l + 1 <= cap -> copies (fails (lenN l)) -> exists v', sv_push conv fails v t = Ok v' /\ R v' (l ++ [conv t])) /\
  (cap < lenN l + 1 \/ ~ copies (fails (lenN l)) -> exists e, sv_push conv fails v t = Throw e).
Proof.
  intros H. pose proof H as (_ & Hc & _).
  destruct (R_push cap (fun x => x) (fun _ _ => true) v l (conv t) (fails (lenN l)) SMALL H) as [v' P].
  unfold sv_push, sv_size. rewrite Hc. unfold vec_step, copies in *.
  destruct (fails (lenN l)) as [[|[p|p|]]|].
  - destruct P as [P _]. rewrite P. split; [intros; lia|eauto].
  - destruct (N.ltb_spec cap (lenN l + 1)).
    + destruct P as [P _]. rewrite P. split; [intros; lia|eauto].
    + destruct P as [P Q]. rewrite P. split; [intros; exists v'; split; [reflexivity|exact Q]|intros; lia].
  - destruct (N.ltb_spec cap (lenN l + 1)).
    + destruct P as [P _]. rewrite P. split; [intros; lia|eauto].
    + destruct P as [P Q]. rewrite P. split; [intros; exists v'; split; [reflexivity|exact Q]|intros; lia].
  - destruct (N.ltb_spec cap (lenN l + 1)); destruct P as [P _]; rewrite P; split; try (intros; lia); eauto.
  - destruct (N.ltb_spec cap (lenN l + 1)).
    + destruct P as [P _]. rewrite P. split; [intros; lia|eauto].
    + destruct P as [P Q]. rewrite P. split; [intros; exists v'; split; [reflexivity|exact Q]|intros [|[]]; [lia|exact I]].
Qed.

Lemma push_all_char toks : forall v l, R v l ->
  (lenN l + lenN toks <= cap -> (forall k, lenN l <= k < lenN l + lenN toks -> copies (fails k)) ->
     exists v', push_all (sv_push conv fails) toks v = Ok v' /\ R v' (l ++ map conv toks)) /\
  (cap < lenN l + lenN toks \/ (exists k, lenN l <= k < lenN l + lenN toks /\ ~ copies (fails k)) -> lenN l <= cap ->
     exists e, push_all (sv_push conv fails) toks v = Throw e).
Proof.
  induction toks as [|t r IH]; intros v l H.
  - rewrite (@lenN_nil view). split.
    + intros _ _. exists v. cbn [map]. rewrite app_nil_r. split; [reflexivity|exact H].
    + intros [X|(k & K & _)] LE; lia.
  - destruct (sv_push_char v l t H) as [G B]. rewrite lenN_cons, push_all_cons.
    assert (D : (lenN l + 1 <= cap /\ copies (fails (lenN l))) \/ (cap < lenN l + 1 \/ ~ copies (fails (lenN l)))).
    { destruct (N.le_gt_cases (lenN l + 1) cap); [|right; now left]. destruct (copies_dec (fails (lenN l))); [now left|right; now right]. }
    destruct D as [[D1 D2]|D].
    + destruct (G D1 D2) as (v' & E & R'). rewrite E. cbn [obind]. destruct (IH v' (l ++ [conv t]) R') as [IG IB].
      rewrite lenN_app, lenN_cons, lenN_nil in IG, IB. split.
      * intros F A. destruct IG as (w & W & RW); [lia|intros k K; apply A; lia|]. exists w. split; [exact W|].
        cbn [map]. rewrite <- app_assoc in RW. exact RW.
      * intros X _. apply IB; [|lia]. destruct X as [X|(k & K & NK)]; [left; lia|right]. exists k. split; [|exact NK].
        destruct (N.eq_dec k (lenN l)) as [->|]; [contradiction|lia].
    + destruct (B D) as [e E]. rewrite E. cbn [obind]. split; [|eauto].
      intros F A. exfalso. destruct D as [D|D]; [lia|]. apply D. apply A. lia.
Qed.

Lemma R_holds (v : svec V) l : R v l -> holds cap v l.
Proof.
  intros H. split; [apply (R_shows cap (fun x => x) (fun _ _ => true) v l H)|].
  intros bld. apply (R_iterate bld cap v l H).
Qed.

Lemma split_static_char s d b : exists vs, split_to (fun _ => true) s d b = Ok vs /\
  (lenN vs <= cap -> (forall k, k < lenN vs -> copies (fails k)) ->
     exists out, split_to_static cap conv fails s d b = Ok out /\ holds cap out (map conv vs)) /\
  (cap < lenN vs \/ (exists k, k < lenN vs /\ ~ copies (fails k)) -> split_to_static cap conv fails s d b = Terminate).
Proof.
  destruct (split_to_char (fun _ => true) s d b) as (vs & _ & _ & E).
  rewrite (proj2 (forallb_forall _ _)) in E by auto. exists vs. split; [exact E|].
  unfold split_to in E. destruct (split_loop (S (length s)) (fun _ => true) (View 0 s) d b []) as [all| | | |] eqn:L; try discriminate.
  injection E as ->. destruct (into_loop_char (sv_push conv fails) d b _ _ _ _ (sv_default cap) L) as (toks & T & I). cbn [app] in T. subst toks.
  unfold split_to_static. rewrite I.
  assert (R0 : R (sv_default cap) (@nil V)) by apply (R_default cap).
  destruct (push_all_char vs (sv_default cap) [] R0) as [G B]. rewrite lenN_nil in *. cbn [app] in G. split.
  - intros F A. destruct G as (w & W & RW); [lia|intros k K; apply A; lia|]. exists w. rewrite W. split; [reflexivity|now apply R_holds].
  - intros X. destruct B as [e W]; [|lia|now rewrite W]. destruct X as [X|(k & K & NK)]; [left; lia|right; exists k; split; [lia|exact NK]].
Qed.
End P.

Lemma fits_keep {V} cap (conv : view -> V) s d : cap < 2 ^ 63 ->
  (count_char d s < cap -> exists out, split_to_static cap conv (fun _ => None) s d keep_empty = Ok out) /\
  (cap <= count_char d s -> split_to_static cap conv (fun _ => None) s d keep_empty = Terminate).
Proof.
  intros Sm. destruct (split_static_char cap conv (fun _ => None) Sm s d keep_empty) as (vs & E & G & B).
  assert (L : lenN vs = count_char d s + 1).
  { destruct (split_total (fun _ => true) s d keep_empty) as (ts & E2 & _ & L & _). unfold split in E2. rewrite E in E2. cbn [obind] in E2.
    injection E2 as <-. rewrite <- L by reflexivity. now rewrite lenN_map. }
  split.
  - intros H. destruct G as (out & O & _); [lia|intros; exact I|eauto].
  - intros H. apply B. left. lia.
Qed.

Lemma fits_drop {V} cap (conv : view -> V) s d : cap < 2 ^ 63 -> count_char d s < cap ->
  exists out, split_to_static cap conv (fun _ => None) s d drop_empty = Ok out.
Proof.
  intros Sm H. destruct (split_static_char cap conv (fun _ => None) Sm s d drop_empty) as (vs & E & G & B).
  assert (L : lenN vs <= count_char d s + 1).
  { destruct (split_drop_keep s d) as (ts & E1 & E2).
    destruct (split_total (fun _ => true) s d keep_empty) as (ts' & E3 & _ & L & _). rewrite E1 in E3. injection E3 as <-.
    unfold split in E2. rewrite E in E2. cbn [obind] in E2. injection E2 as E2. rewrite <- L by reflexivity.
    rewrite <- (lenN_map v_chars vs), E2. clear. induction ts as [|t r IH]; cbn [filter]; [reflexivity|].
    destruct (not_empty t); rewrite ?lenN_cons; lia. }
  destruct G as (out & O & _); [lia|intros; exact I|eauto].
Qed.

Lemma static_join_back cap fails s d max_size out : cap < 2 ^ 63 -> lenN s <= max_size -> max_size < size_mod ->
  split_to_static cap v_chars fails s d keep_empty = Ok out ->
  exists ts, (forall bld, sv_iterate bld out = Ok ts) /\ join max_size ts d = Ok s.
Proof.
  intros Sm H1 H2 E. destruct (split_static_char cap v_chars fails Sm s d keep_empty) as (vs & E1 & G & B).
  assert (D : (forall k, k < lenN vs -> copies (fails k)) \/ exists k, k < lenN vs /\ ~ copies (fails k)).
  { clear. induction (lenN vs) as [|n IH] using N.peano_ind; [left; intros; lia|].
    destruct IH as [IH|(k & K & NK)]; [|right; exists k; split; [lia|exact NK]].
    destruct (copies_dec (fails n)) as [C|C]; [left|right; exists n; split; [lia|exact C]].
    intros k K. destruct (N.eq_dec k n) as [->|]; [exact C|apply IH; lia]. }
  destruct (N.le_gt_cases (lenN vs) cap) as [F|F]; [|rewrite B in E by (now left); discriminate].
  destruct D as [D|D]; [|rewrite B in E by (now right); discriminate].
  destruct (G F D) as (out' & O & [_ It]). rewrite E in O. injection O as <-. exists (map v_chars vs). split; [exact It|].
  apply (split_then_join max_size s d); [exact H1|exact H2|]. unfold split. now rewrite E1.
Qed.

Lemma static_pointers {V} cap (conv : view -> V) fails d b : cap < 2 ^ 63 ->
  (exists out, split_to_static_ptr cap conv fails None d b = Ok out /\ holds cap out []) /\
  forall t rest, ~ In 0 t -> split_to_static_ptr cap conv fails (Some (t ++ 0 :: rest)) d b = split_to_static cap conv fails t d b.
Proof.
  intros Sm. split.
  - exists (sv_default cap). split; [reflexivity|]. apply R_holds. apply (R_default cap).
  - intros t rest H. unfold split_to_static_ptr. now rewrite c_text_spec by exact H.
Qed.
