(** Proofs for C104. *)
From Coq Require Import List. Import ListNotations.
From Flocq Require Import Core.FLX IEEE754.BinarySingleNaN.
From Verif Require Import Base Iter_Model Sv_Model Ident_Model IdentMove_Model SvIter_Model Frag_Model Index_Model
  Range_Model Float_Model Single_Model Long_Model Builds_Spec.

Lemma agrees_const {A} (r : outcome A) : agrees (fun _ => r).
Proof. intros b. now left. Qed.

Lemma agrees_dassert p : agrees (fun b => dassert b p).
Proof. intros []; destruct p; cbn; auto. Qed.

Lemma agrees_bind {A B} (f : build -> outcome A) (g : build -> A -> outcome B) :
  agrees f -> (forall x, agrees (fun b => g b x)) -> agrees (fun b => obind (f b) (g b)).
Proof.
  intros F G b. destruct (F b) as [-> | X].
  - destruct (f Release); cbn; auto. apply G.
  - right. destruct b; cbn in *; [easy| |].
    + now rewrite X.
    + destruct X as [-> | ->]; cbn; auto.
Qed.

Lemma agrees_noexcept {A} (f : build -> outcome A) : agrees f -> agrees (fun b => noexcept (f b)).
Proof.
  intros F b. destruct (F b) as [-> | X]; [now left|]. right.
  destruct b; cbn in *; [easy| |].
  - now rewrite X.
  - destruct X as [-> | ->]; cbn; auto.
Qed.

Lemma agrees_omap {A B} (h : A -> B) (f : build -> outcome A) : agrees f -> agrees (fun b => omap h (f b)).
Proof. intros F. unfold omap. apply agrees_bind; [exact F|]. intros x. apply agrees_const. Qed.

Ltac agree :=
  repeat first
    [ apply agrees_const
    | apply agrees_dassert
    | assumption
    | solve [auto with builds]
    | match goal with
      | |- agrees (fun b => obind _ _) => apply agrees_bind; [|intros ?]
      | |- agrees (fun b => noexcept _) => apply agrees_noexcept
      | |- agrees (fun b => omap _ _) => apply agrees_omap
      | |- agrees (fun b => match ?x with _ => _ end) => destruct x
      end ].

Create HintDb builds.

(** * Iterators over static_vectors and collections *)
Section Iterators.
Context {V : Type} (arr : list (option V)).
Lemma a_inc it : agrees (fun b => di_inc b arr it).
Proof. unfold di_inc. agree. Qed.
Lemma a_dec it : agrees (fun b => di_dec b arr it).
Proof. unfold di_dec. agree. Qed.
Lemma a_add_assign it off : agrees (fun b => di_add_assign b arr it off).
Proof. unfold di_add_assign. agree. Qed.
Lemma a_sub_assign it off : agrees (fun b => di_sub_assign b arr it off).
Proof. unfold di_sub_assign. agree. Qed.
Lemma a_add it off : agrees (fun b => di_add b arr it off).
Proof. unfold di_add. pose proof a_add_assign. agree. Qed.
Lemma a_sub it off : agrees (fun b => di_sub b arr it off).
Proof. unfold di_sub. pose proof a_sub_assign. agree. Qed.
Lemma a_diff it other : agrees (fun b => di_diff b it other).
Proof. unfold di_diff. agree. Qed.
Lemma a_cmp it other : agrees (fun b => di_cmp b it other).
Proof. unfold di_cmp. agree. Qed.
Lemma a_walk fuel : forall it last, agrees (fun b => di_walk b arr fuel it last).
Proof. pose proof a_inc. induction fuel; intros; cbn [di_walk]; agree. Qed.
Lemma a_rwalk fuel : forall it last, agrees (fun b => di_rwalk b arr fuel it last).
Proof. pose proof a_dec. induction fuel; intros; cbn [di_rwalk]; agree. Qed.
(** operator[] throws std::bad_optional_access only where the other builds terminate *)
Lemma a_index it off b :
  di_index b arr it off = di_index Release arr it off \/ assertion_failed b (di_index b arr it off)
  \/ (b = DebugThrow /\ di_index b arr it off = Throw user_exn /\ di_index Release arr it off = Terminate).
Proof.
  unfold di_index. destruct b; cbn [dassert obind]; [now left| |];
    destruct (0 <=? off)%Z; cbn [obind assertion_failed]; auto;
    destruct (_ <? _)%Z; cbn [obind assertion_failed]; auto.
  destruct (raw_at _ _) as [[|] | | | |]; cbn; auto.
Qed.
End Iterators.
#[export] Hint Resolve a_inc a_dec a_add_assign a_sub_assign a_add a_sub a_diff a_cmp a_walk a_rwalk : builds.

(** * static_vector *)
Section Vectors.
Context {V : Type} (veq : V -> V -> bool).
Lemma a_iterate (v : svec V) : agrees (fun b => sv_iterate b v).
Proof. unfold sv_iterate. agree. Qed.
Lemma a_riterate (v : svec V) : agrees (fun b => sv_riterate b v).
Proof. unfold sv_riterate. agree. Qed.
Lemma a_equal_walk ra rb fuel : forall i last j, agrees (fun b => equal_walk veq b ra rb fuel i last j).
Proof. induction fuel; intros; cbn [equal_walk]; agree. Qed.
Lemma a_sv_eq (x y : svec V) : agrees (fun b => sv_eq veq b x y).
Proof. unfold sv_eq. pose proof a_equal_walk. agree. Qed.

Variables (cap : N) (moved : V -> V).

Lemma sv_step_agrees b o p :
  sv_step b cap moved veq o p = sv_step Release cap moved veq o p
  \/ vector_failure b (fst (sv_step b cap moved veq o p)).
Proof.
  destruct o; cbn [sv_step]; try (now left).
  - destruct (a_iterate (p i) b) as [-> | X]; auto.
  - destruct (a_riterate (p i) b) as [-> | X]; auto.
  - destruct (a_sv_eq (p i) (p j) b) as [-> | X]; auto.
Qed.
End Vectors.

(** * Programs *)
Section Programs.
Context {Op O S : Type}.
Variables (step : build -> Op -> S -> O * S) (run : build -> list Op -> S -> list O * S) (excused : build -> O -> O -> Prop).
Hypothesis run_nil : forall b s, run b [] s = ([], s).
Hypothesis run_cons : forall b o ops s,
  run b (o :: ops) s = let '(x, s1) := step b o s in let '(xs, s2) := run b ops s1 in (x :: xs, s2).
Hypothesis step_agrees : forall b o s,
  step b o s = step Release o s \/ excused b (fst (step b o s)) (fst (step Release o s)).
Lemma run_agrees b ops : forall s, same_until (excused b) (run b ops s) (run Release ops s).
Proof.
  induction ops as [|o ops IH]; intros s.
  - left. now rewrite !run_nil.
  - rewrite !run_cons. destruct (step_agrees b o s) as [-> | X].
    + destruct (step Release o s) as [x s1]. specialize (IH s1).
      destruct (run b ops s1) as [xs s2], (run Release ops s1) as [ys s3].
      destruct IH as [[= -> ->] | (c & u & v & r1 & r2 & E1 & E2 & F)]; [now left|]. right.
      exists (x :: c), u, v, r1, r2. cbn in *. subst. auto.
    + right. destruct (step b o s) as [x s1], (step Release o s) as [y s1'].
      destruct (run b ops s1) as [xs s2], (run Release ops s1') as [ys s3].
      exists [], x, y, xs, ys. auto.
Qed.
End Programs.

Lemma vectors_agree {V} b cap (moved : V -> V) veq ops p :
  same_until (fun x _ => vector_failure b x) (sv_run b cap moved veq ops p) (sv_run Release cap moved veq ops p).
Proof.
  exact (run_agrees (fun b => sv_step b cap moved veq) (fun b => sv_run b cap moved veq) (fun b x _ => vector_failure b x)
           (fun _ _ => eq_refl) (fun _ _ _ _ => eq_refl) (fun b o s => sv_step_agrees veq cap moved b o s) b ops p).
Qed.

(** * Kept iterators *)
Section Held.
Context {V : Type} (veq : V -> V -> bool) (cap : N) (moved : V -> V).
Notation excused := (fun b (x y : SvIter_Model.iobs V) => iterator_failure b x \/ let_out b x y).

Lemma move_agrees b s k l (f : build -> list (option V) -> diter -> outcome diter) :
  (forall arr it, agrees (fun b => f b arr it)) ->
  move_it s k l (f b) = move_it s k l (f Release) \/ assertion_failed b (fst (move_it s k l (f b))).
Proof.
  intros F. unfold move_it. destruct (snd s k) as [it|]; [|now left].
  destruct (F (pointee (fst s) it) it b) as [-> | X]; [now left|]. right.
  destruct b; cbn in X; [easy| |].
  - now rewrite X.
  - destruct X as [-> | ->]; cbn; auto.
Qed.
Lemma post_agrees b s k l (f : build -> list (option V) -> diter -> outcome diter) :
  (forall arr it, agrees (fun b => f b arr it)) ->
  post_it s k l (f b) = post_it s k l (f Release) \/ assertion_failed b (fst (post_it s k l (f b))).
Proof.
  intros F. unfold post_it. destruct (snd s k) as [it|]; [|now left].
  destruct (move_agrees b s k k f F) as [-> | X]; [now left|]. right.
  destruct (move_it s k k (f b)) as [r s']. cbn in X.
  destruct b; cbn in X; [easy| |].
  - now subst.
  - destruct X as [-> | ->]; cbn; auto.
Qed.

Lemma iv_step_agrees b o s :
  iv_step b cap moved veq o s = iv_step Release cap moved veq o s
  \/ excused b (fst (iv_step b cap moved veq o s)) (fst (iv_step Release cap moved veq o s)).
Proof.
  destruct o; cbn [iv_step]; try (now left).
  - destruct (sv_step_agrees veq cap moved b o (fst s)) as [-> | X]; [now left|].
    right. left. destruct (sv_step b cap moved veq o (fst s)). exact X.
  - destruct (move_agrees b s k k di_inc a_inc) as [-> | X]; auto.
  - destruct (move_agrees b s k k di_dec a_dec) as [-> | X]; auto.
  - destruct (post_agrees b s k l di_inc a_inc) as [-> | X]; auto.
  - destruct (post_agrees b s k l di_dec a_dec) as [-> | X]; auto.
  - destruct (move_agrees b s k k (fun b arr it => di_add_assign b arr it off)) as [-> | X]; auto with builds.
  - destruct (move_agrees b s k k (fun b arr it => di_sub_assign b arr it off)) as [-> | X]; auto with builds.
  - destruct (move_agrees b s k l (fun b arr it => di_add b arr it off)) as [-> | X]; auto with builds.
  - destruct (move_agrees b s k l (fun b arr it => di_sub b arr it off)) as [-> | X]; auto with builds.
  - unfold use1. destruct (snd s k) as [it|]; [|now left].
    destruct (a_index (pointee (fst s) it) it off b) as [-> | [X | (-> & -> & ->)]]; auto.
    right. right. now repeat split.
  - unfold use2. destruct (snd s k) as [i|], (snd s l) as [j|]; try (now left).
    destruct (a_diff i j b) as [-> | X]; auto.
  - unfold use2. destruct (snd s k) as [i|], (snd s l) as [j|]; try (now left).
    destruct (a_cmp i j b) as [-> | X]; auto.
Qed.

Lemma held_agree b ops s :
  same_until (excused b) (iv_run b cap moved veq ops s) (iv_run Release cap moved veq ops s).
Proof.
  exact (run_agrees (fun b => iv_step b cap moved veq) (fun b => iv_run b cap moved veq) (fun b => excused b)
           (fun _ _ => eq_refl) (fun _ _ _ _ => eq_refl) (fun b o s => iv_step_agrees b o s) b ops s).
Qed.
End Held.

(** * identifiable_item_collection *)
Definition agrees_st {A S} (f : build -> outcome A * S) : Prop :=
  forall b, f b = f Release \/ assertion_failed b (fst (f b)).

Ltac failed_in X :=
  match type of X with
  | assertion_failed ?b (fst ?y) =>
      let r := fresh "r" in let c := fresh "c" in
      destruct y as [r c]; cbn [fst] in X; destruct b; cbn in X; [easy| |];
        [subst r|destruct X; subst r]; cbn; auto
  end.

Lemma st_dassert {A S} p (x : outcome A) (c : S) : agrees_st (fun b => (let! _ := dassert b p in x, c)).
Proof. intros b. destruct b, p; cbn; auto. Qed.
Lemma st_try_unchecked c id a al : agrees_st (fun b => ic_try_unchecked_insert b c id a al).
Proof.
  intros b. unfold ic_try_unchecked_insert. destruct (ic_contains c id); [apply st_dassert|].
  destruct (al_node al); [|now left]. destruct (al_push al); [apply st_dassert|now left].
Qed.
Lemma st_unchecked c id a al : agrees_st (fun b => ic_unchecked_insert b c id a al).
Proof.
  intros b. unfold ic_unchecked_insert. destruct (al_node al); [|now left]. destruct (al_push al); [apply st_dassert|now left].
Qed.
Lemma st_insert c it al : agrees_st (fun b => ic_insert b c it al).
Proof.
  intros b. unfold ic_insert. destruct (ic_contains c (it_id it)); [now left|]. destruct (al_item al); [|now left].
  destruct (new_item c it) as [a c1]. apply st_unchecked.
Qed.
Lemma st_try_insert c it al : agrees_st (fun b => ic_try_insert b c it al).
Proof.
  intros b. unfold ic_try_insert. destruct (al_item al); [|now left].
  destruct (new_item c it) as [a c1]. apply st_try_unchecked.
Qed.
Lemma st_insert_range l : forall c, agrees_st (fun b => ic_insert_range b c l).
Proof.
  induction l as [|[it al] l IH]; intros c b; cbn [ic_insert_range]; [now left|].
  destruct (st_try_insert c it al b) as [-> | X].
  - destruct (ic_try_insert Release c it al) as [[| | | |] c1]; try (now left). apply IH.
  - right. failed_in X.
Qed.
Lemma st_insert_each l : forall c, agrees_st (fun b => ic_insert_each b c l).
Proof.
  induction l as [|[it al] l IH]; intros c b; cbn [ic_insert_each]; [now left|].
  destruct (st_insert c it al b) as [-> | X].
  - destruct (ic_insert Release c it al) as [[| | | |] c1]; try (now left). apply IH.
  - right. failed_in X.
Qed.
Lemma st_try_insert_each l : forall c, agrees_st (fun b => ic_try_insert_each b c l).
Proof.
  induction l as [|[it al] l IH]; intros c b; cbn [ic_try_insert_each]; [now left|].
  destruct (st_try_insert c it al b) as [-> | X].
  - destruct (ic_try_insert Release c it al) as [[r| | | |] c1]; try (now left).
    destruct (IH c1 b) as [-> | X]; [now left|]. right.
    failed_in X.
  - right. failed_in X.
Qed.
Lemma st_emplace c it al : agrees_st (fun b => ic_emplace b c it al).
Proof.
  intros b. unfold ic_emplace. destruct (al_item al); [|now left]. destruct (new_item c it) as [a c1].
  destruct (st_try_unchecked c1 (it_id it) a al b) as [-> | X]; [now left|]. right. failed_in X.
Qed.
Lemma st_excise c id : agrees_st (fun b => ic_excise b c id).
Proof.
  intros b. unfold ic_excise. destruct (lookup id (c_items c)) as [a|]; [|now left]. cbn [c_order].
  destruct (find_ptr a (c_order c)) as [[p q]|]; [now left|]. destruct b; cbn; auto.
Qed.
Lemma a_ic_iterate c : agrees (fun b => ic_iterate b c).
Proof. unfold ic_iterate. agree. Qed.
Lemma a_ic_riterate c : agrees (fun b => ic_riterate b c).
Proof. unfold ic_riterate. agree. Qed.

Lemma ic_step_agrees b o c :
  ic_step b o c = ic_step Release o c \/ collection_failure b (fst (ic_step b o c)).
Proof.
  destruct o; cbn [ic_step]; try (now left).
  - destruct (st_insert c it al b) as [-> | X]; [now left|]. right. now destruct (ic_insert b c it al).
  - destruct (st_try_insert c it al b) as [-> | X]; [now left|]. right. now destruct (ic_try_insert b c it al).
  - destruct (st_insert_range l c b) as [-> | X]; [now left|]. right. now destruct (ic_insert_range b c l).
  - destruct (st_insert_each l c b) as [-> | X]; [now left|]. right. now destruct (ic_insert_each b c l).
  - destruct (st_try_insert_each l c b) as [-> | X]; [now left|]. right. now destruct (ic_try_insert_each b c l).
  - destruct (st_emplace c it al b) as [-> | X]; [now left|]. right. failed_in X.
  - destruct (st_excise c id b) as [-> | X]; [now left|]. right. now destruct (ic_excise b c id).
  - destruct (a_ic_iterate c b) as [-> | X]; auto.
  - destruct (a_ic_riterate c b) as [-> | X]; auto.
Qed.
Lemma collections_agree b ops c :
  same_until (fun x _ => collection_failure b x) (ic_run b ops c) (ic_run Release ops c).
Proof.
  exact (run_agrees (fun b => ic_step b) (fun b => ic_run b) (fun b x _ => collection_failure b x)
           (fun _ _ => eq_refl) (fun _ _ _ _ => eq_refl) (fun b o s => ic_step_agrees b o s) b ops c).
Qed.
Lemma moves_agree b ops s :
  same_until (fun x _ => exists y, x = Some y /\ collection_failure b y) (mrun b ops s) (mrun Release ops s).
Proof.
  refine (run_agrees (fun b => mstep b) (fun b => mrun b) (fun b x _ => exists y, x = Some y /\ collection_failure b y)
           (fun _ _ => eq_refl) (fun _ _ _ _ => eq_refl) _ b ops s).
  clear. intros b [v o | v w l | v h | v] s; cbn [mstep]; try (now left).
  destruct (ic_step_agrees b o (cs_var s v)) as [-> | X]; [now left|]. right.
  destruct (ic_step b o (cs_var s v)) as [x c]. exists x. auto.
Qed.

(** * fragment_string *)
Section Fragments.
Lemma a_deref fs it : agrees (fun b => it_deref b fs it).
Proof. unfold it_deref. agree. Qed.
Lemma a_it_inc fs it : agrees (fun b => it_inc b fs it).
Proof. unfold it_inc. agree. Qed.
Lemma a_it_dec fs it : agrees (fun b => it_dec b fs it).
Proof. unfold it_dec. agree. Qed.
Lemma a_seek_forward fs fuel : forall it off, agrees (fun b => seek_forward fuel b fs it off).
Proof. induction fuel; intros; cbn [seek_forward]; agree. Qed.
Lemma a_seek_backward fs fuel : forall it off, agrees (fun b => seek_backward fuel b fs it off).
Proof. induction fuel; intros; cbn [seek_backward]; agree. Qed.
#[local] Hint Resolve a_deref a_it_inc a_it_dec a_seek_forward a_seek_backward : builds.
Lemma a_seek fs it off : agrees (fun b => seek b fs it off).
Proof. unfold seek. agree. Qed.
#[local] Hint Resolve a_seek : builds.
Lemma a_seek_minus fs it off : agrees (fun b => seek_minus b fs it off).
Proof. unfold seek_minus. agree. Qed.
Lemma a_next fs it n : agrees (fun b => next b fs it n).
Proof. unfold next. agree. Qed.
#[local] Hint Resolve a_seek_minus a_next : builds.
Lemma a_subscript fs pos : agrees (fun b => subscript b fs pos).
Proof. unfold subscript. agree. Qed.
#[local] Hint Resolve a_subscript : builds.
Lemma a_at_pos fs pos : agrees (fun b => at_pos b fs pos).
Proof. unfold at_pos. agree. Qed.
Lemma a_front fs : agrees (fun b => front b fs).
Proof. unfold front. agree. Qed.
Lemma a_back fs : agrees (fun b => back b fs).
Proof. unfold back. agree. Qed.
#[local] Hint Resolve a_front a_back : builds.
Lemma a_collect fs fuel : forall it last, agrees (fun b => collect fuel b fs it last).
Proof. induction fuel; intros; cbn [collect]; agree. Qed.
Lemma a_rcollect fs fuel : forall it last, agrees (fun b => rcollect fuel b fs it last).
Proof. induction fuel; intros; cbn [rcollect]; agree. Qed.
#[local] Hint Resolve a_collect a_rcollect : builds.
Lemma a_walk_fs fs : agrees (fun b => walk b fs).
Proof. unfold walk. agree. Qed.
Lemma a_rwalk_fs fs : agrees (fun b => rwalk b fs).
Proof. unfold rwalk. agree. Qed.
Lemma a_compare_loop ct fs os fuel : forall it o, agrees (fun b => compare_loop fuel b ct fs it os o).
Proof. induction fuel; intros; cbn [compare_loop]; agree. Qed.
#[local] Hint Resolve a_compare_loop : builds.
Lemma a_compare_fs ct fs os : agrees (fun b => compare_fs b ct fs os).
Proof. unfold compare_fs. agree. Qed.
Lemma a_compare_sv ct fs s : agrees (fun b => compare_sv b ct fs s).
Proof. exact (a_compare_fs ct fs [Some s]). Qed.
Lemma a_equal_loop f1 f2 n : forall i1 i2, agrees (fun b => equal_loop n b f1 i1 f2 i2).
Proof. induction n; intros; cbn [equal_loop]; agree. Qed.
Lemma a_requal_loop f1 f2 n : forall i1 i2, agrees (fun b => requal_loop n b f1 i1 f2 i2).
Proof. induction n; intros; cbn [requal_loop]; agree. Qed.
#[local] Hint Resolve a_equal_loop a_requal_loop : builds.
Lemma a_equal f1 x1 y1 f2 x2 y2 : agrees (fun b => equal b f1 x1 y1 f2 x2 y2).
Proof. unfold equal. agree. Qed.
Lemma a_requal f1 x1 y1 f2 x2 y2 : agrees (fun b => requal b f1 x1 y1 f2 x2 y2).
Proof. unfold requal. agree. Qed.
#[local] Hint Resolve a_equal a_requal : builds.
Lemma a_starts_with_char fs c : agrees (fun b => starts_with_char b fs c).
Proof. unfold starts_with_char. agree. Qed.
Lemma a_ends_with_char fs c : agrees (fun b => ends_with_char b fs c).
Proof. unfold ends_with_char. agree. Qed.
Lemma a_starts_with fs os : agrees (fun b => starts_with b fs os).
Proof. unfold starts_with. agree. Qed.
Lemma a_ends_with fs os : agrees (fun b => ends_with b fs os).
Proof. unfold ends_with. agree. Qed.
Lemma a_find_loop fs sv fuel : forall it e out, agrees (fun b => find_loop fuel b fs sv it e out).
Proof. induction fuel; intros; cbn [find_loop]; agree. Qed.
#[local] Hint Resolve a_find_loop : builds.
Lemma a_find_sv fs sv pos : agrees (fun b => find_sv b fs sv pos).
Proof. unfold find_sv. agree. Qed.
#[local] Hint Resolve a_find_sv : builds.
Lemma a_contains_sv fs sv : agrees (fun b => contains_sv b fs sv).
Proof. unfold contains_sv. agree. Qed.
Lemma a_contains_loop fs os fuel : forall it last e, agrees (fun b => contains_loop fuel b fs os it last e).
Proof. induction fuel; intros; cbn [contains_loop]; agree. Qed.
#[local] Hint Resolve a_contains_loop : builds.
Lemma a_contains_fs fs os : agrees (fun b => contains_fs b fs os).
Proof. unfold contains_fs. agree. Qed.
Lemma a_substr fs pos count : agrees (fun b => substr b fs pos count).
Proof. unfold substr. agree. Qed.
Lemma a_copy_n fs n : forall it dest pos, agrees (fun b => copy_n n b fs it dest pos).
Proof. induction n; intros; cbn [copy_n]; agree. Qed.
#[local] Hint Resolve a_copy_n : builds.
Lemma a_copy fs dest count pos : agrees (fun b => copy b fs dest count pos).
Proof. unfold copy. agree. Qed.
End Fragments.

(** * index *)
Lemma a_ix_inc i : agrees (fun b => ix_inc b i).
Proof. unfold ix_inc. agree. Qed.
Lemma a_ix_post_inc i : agrees (fun b => ix_post_inc b i).
Proof. unfold ix_post_inc. agree. Qed.
Lemma a_ix_dec i : agrees (fun b => ix_dec b i).
Proof. unfold ix_dec. agree. Qed.
Lemma a_ix_post_dec i : agrees (fun b => ix_post_dec b i).
Proof. unfold ix_post_dec. agree. Qed.
Lemma a_ix_add_assign i off : off <> (- 2 ^ 63)%Z -> agrees (fun b => ix_add_assign b i off).
Proof.
  intros H b. unfold ix_add_assign, neg_ptrdiff. rewrite (proj2 (Z.eqb_neq _ _) H).
  destruct b; cbn [is_debug obind dassert]; [now left| |];
    destruct (0 <? off)%Z; cbn [obind]; destruct (_ <=? _); cbn; auto.
Qed.
Lemma a_ix_sub_assign i off : off <> (- 2 ^ 63)%Z -> agrees (fun b => ix_sub_assign b i off).
Proof.
  intros H b. unfold ix_sub_assign, neg_ptrdiff. rewrite (proj2 (Z.eqb_neq _ _) H).
  destruct b; cbn [is_debug obind dassert]; [now left| |];
    destruct (0 <? off)%Z; cbn [obind]; destruct (_ <=? _); cbn; auto.
Qed.
Lemma ix_min_offset i :
  ix_add_assign Release i (- 2 ^ 63) = Ok (sz_add i (2 ^ 63)) /\ ix_sub_assign Release i (- 2 ^ 63) = Ok (sz_sub i (2 ^ 63))
  /\ forall b, b <> Release -> ix_add_assign b i (- 2 ^ 63) = UB /\ ix_sub_assign b i (- 2 ^ 63) = UB.
Proof. split; [reflexivity|]. split; [reflexivity|]. now intros [] H. Qed.

(** * Ranges *)
Section Ranges.
Context {T : Type} (cmp : T -> T -> option comparison) (lk hk : boundary).
Lemma a_vr_make x y : agrees (fun b => vr_make cmp b x y).
Proof. unfold vr_make. agree. Qed.
#[local] Hint Resolve a_vr_make : builds.
Lemma a_overlap r s : agrees (fun b => overlap cmp b r s).
Proof. unfold overlap. agree. Qed.
Lemma a_set_min nxt r x : (exists y, nxt x = Ok y) -> agrees (fun b => set_min cmp b lk hk nxt r x).
Proof.
  intros (y & E) b. unfold set_min. rewrite E. destruct b; [now left| |];
    destruct lk; cbn [obind dassert]; destruct (negb _); cbn; auto.
Qed.
Lemma a_set_max prv r x : (exists y, prv x = Ok y) -> agrees (fun b => set_max cmp b lk hk prv r x).
Proof.
  intros (y & E) b. unfold set_max. rewrite E. destruct b; [now left| |];
    destruct hk; cbn [obind dassert]; destruct (negb _); cbn; auto.
Qed.
(** a closed end does not use the neighbour *)
Lemma a_set_min_closed nxt r x : agrees (fun b => set_min cmp b closed hk nxt r x).
Proof. intros []; unfold set_min; [now left| |]; cbn [obind dassert]; destruct (negb _); cbn; auto. Qed.
Lemma a_set_max_closed prv r x : agrees (fun b => set_max cmp b lk closed prv r x).
Proof. intros []; unfold set_max; [now left| |]; cbn [obind dassert]; destruct (negb _); cbn; auto. Qed.
Lemma a_envelope first others : agrees (fun b => envelope cmp b first others).
Proof. unfold envelope. destruct (match others with [y] => _ | _ => _ end). agree. Qed.
Lemma a_envelope_range l : agrees (fun b => envelope_range cmp b l).
Proof. unfold envelope_range. agree. Qed.
Lemma a_envelope_ranges r l : agrees (fun b => envelope_ranges cmp b r l).
Proof. unfold envelope_ranges. agree. Qed.
End Ranges.
Lemma a_vr_size t r : agrees (fun b => vr_size b t r).
Proof. unfold vr_size. agree. Qed.
Lemma a_vr_mid t r : agrees (fun b => vr_mid b t r).
Proof. unfold vr_mid. pose proof a_vr_size. agree. Qed.
Lemma a_int_default t : agrees (fun b => int_default_bounds b t).
Proof. apply a_vr_make. Qed.
Lemma a_vr_size_double r : agrees (fun b => vr_size_double b r).
Proof. unfold vr_size_double. agree. Qed.
Lemma a_vr_mid_double r : agrees (fun b => vr_mid_double b r).
Proof. unfold vr_mid_double. pose proof a_vr_size_double. agree. Qed.
Lemma a_vr_size_float r : agrees (fun b => vr_size_float b r).
Proof. unfold vr_size_float. agree. Qed.
Lemma a_vr_mid_float r : agrees (fun b => vr_mid_float b r).
Proof. unfold vr_mid_float. pose proof a_vr_size_float. agree. Qed.
Lemma a_vr_size_long prec emax (Hp : Prec_gt_0 prec) (He : Prec_lt_emax prec emax) r : agrees (fun b => vr_size_long (prec := prec) (emax := emax) b r).
Proof. unfold vr_size_long. agree. Qed.
Lemma a_vr_mid_long prec emax (Hp : Prec_gt_0 prec) (He : Prec_lt_emax prec emax) r : agrees (fun b => vr_mid_long (prec := prec) (emax := emax) b r).
Proof. unfold vr_mid_long. pose proof a_vr_size_long. agree. Qed.
From Verif Require Import Range_Spec IntRange_Proofs RangeEdge_Proofs.
Lemma next_defined t v : usual t -> z_ok t v ->
  (it_signed t && (32 <=? it_bits t) = true -> v <> it_hi t)%Z -> exists y, int_next t v = Ok y.
Proof.
  intros U K H. destruct (Z.eq_dec v (it_hi t)) as [-> | N].
  - rewrite next_edge by exact U. destruct (_ && _); [now elim H|eauto].
  - rewrite next_fits by (auto; unfold z_ok in *; lia). eauto.
Qed.
Lemma prev_defined t v : usual t -> z_ok t v ->
  (it_signed t && (32 <=? it_bits t) = true -> v <> it_lo t)%Z -> exists y, int_prev t v = Ok y.
Proof.
  intros U K H. destruct (Z.eq_dec v (it_lo t)) as [-> | N].
  - rewrite prev_edge by exact U. destruct (_ && _); [now elim H|eauto].
  - rewrite prev_fits by (auto; unfold z_ok in *; lia). eauto.
Qed.
Lemma a_set_min_int t lk hk r x : usual t -> z_ok t x ->
  (lk = opened -> it_signed t && (32 <=? it_bits t) = true -> x <> it_hi t)%Z ->
  agrees (fun b => set_min zcmp b lk hk (int_next t) r x).
Proof.
  intros U K H. destruct lk; [apply a_set_min_closed|]. apply a_set_min, next_defined; auto.
Qed.
Lemma a_set_max_int t lk hk r x : usual t -> z_ok t x ->
  (hk = opened -> it_signed t && (32 <=? it_bits t) = true -> x <> it_lo t)%Z ->
  agrees (fun b => set_max zcmp b lk hk (int_prev t) r x).
Proof.
  intros U K H. destruct hk; [apply a_set_max_closed|]. apply a_set_max, prev_defined; auto.
Qed.

Lemma fragments_agree : forall (fs os : frags) (s dest : list N) ct c pos count n (off : Z) (i j : iter) fuel,
  agrees (fun b => it_deref b fs i) /\ agrees (fun b => it_inc b fs i) /\ agrees (fun b => it_dec b fs i) /\
  agrees (fun b => seek b fs i off) /\ agrees (fun b => seek_minus b fs i off) /\ agrees (fun b => next b fs i n) /\
  agrees (fun b => collect fuel b fs i j) /\ agrees (fun b => rcollect fuel b fs i j) /\
  agrees (fun b => subscript b fs pos) /\ agrees (fun b => at_pos b fs pos) /\
  agrees (fun b => front b fs) /\ agrees (fun b => back b fs) /\
  agrees (fun b => compare_fs b ct fs os) /\ agrees (fun b => compare_sv b ct fs s) /\
  agrees (fun b => starts_with_char b fs c) /\ agrees (fun b => ends_with_char b fs c) /\
  agrees (fun b => starts_with b fs os) /\ agrees (fun b => ends_with b fs os) /\
  agrees (fun b => find_sv b fs s pos) /\ agrees (fun b => contains_sv b fs s) /\ agrees (fun b => contains_fs b fs os) /\
  agrees (fun b => substr b fs pos count) /\ agrees (fun b => Frag_Model.copy b fs dest count pos).
Proof.
  intros. split; [apply a_deref|]. split; [apply a_it_inc|]. split; [apply a_it_dec|]. split; [apply a_seek|].
  split; [apply a_seek_minus|]. split; [apply a_next|]. split; [apply a_collect|]. split; [apply a_rcollect|].
  split; [apply a_subscript|]. split; [apply a_at_pos|]. split; [apply a_front|]. split; [apply a_back|].
  split; [apply a_compare_fs|]. split; [apply a_compare_sv|]. split; [apply a_starts_with_char|]. split; [apply a_ends_with_char|].
  split; [apply a_starts_with|]. split; [apply a_ends_with|]. split; [apply a_find_sv|]. split; [apply a_contains_sv|].
  split; [apply a_contains_fs|]. split; [apply a_substr|]. apply a_copy.
Qed.
Lemma index_agrees : forall i off,
  agrees (fun b => ix_inc b i) /\ agrees (fun b => ix_post_inc b i) /\
  agrees (fun b => ix_dec b i) /\ agrees (fun b => ix_post_dec b i) /\
  (off <> - 2 ^ 63 ->
   agrees (fun b => ix_add_assign b i off) /\ agrees (fun b => ix_sub_assign b i off) /\
   agrees (fun b => ix_add b i off) /\ agrees (fun b => ix_sub b i off))%Z.
Proof.
  intros i off. split; [apply a_ix_inc|]. split; [apply a_ix_post_inc|]. split; [apply a_ix_dec|]. split; [apply a_ix_post_dec|].
  intros H. split; [now apply a_ix_add_assign|]. split; [now apply a_ix_sub_assign|].
  split; [now apply a_ix_add_assign|]. now apply a_ix_sub_assign.
Qed.
Lemma ranges_agree T (cmp : T -> T -> option comparison) (x y : T) (r s : vrange T) l rs :
  agrees (fun b => vr_make cmp b x y) /\ agrees (fun b => overlap cmp b r s) /\
  agrees (fun b => envelope cmp b x l) /\ agrees (fun b => envelope_range cmp b l) /\
  agrees (fun b => envelope_ranges cmp b r rs).
Proof.
  split; [apply a_vr_make|]. split; [apply a_overlap|]. split; [apply a_envelope|]. split; [apply a_envelope_range|].
  apply a_envelope_ranges.
Qed.
Lemma numbers_agree : forall t lk hk (r : vrange Z) x, usual t -> z_ok t x ->
  agrees (fun b => vr_size b t r) /\ agrees (fun b => vr_mid b t r) /\ agrees (fun b => int_default_bounds b t) /\
  ((lk = opened -> it_signed t = true -> (32 <= it_bits t)%Z -> x <> it_hi t) ->
   agrees (fun b => set_min zcmp b lk hk (int_next t) r x)) /\
  ((hk = opened -> it_signed t = true -> (32 <= it_bits t)%Z -> x <> it_lo t) ->
   agrees (fun b => set_max zcmp b lk hk (int_prev t) r x)).
Proof.
  intros t lk hk r x U K. split; [apply a_vr_size|]. split; [apply a_vr_mid|]. split; [apply a_int_default|].
  split; intros H.
  - apply a_set_min_int; auto. intros L E. apply andb_prop in E as [E1 E2]. apply H; auto. lia.
  - apply a_set_max_int; auto. intros L E. apply andb_prop in E as [E1 E2]. apply H; auto. lia.
Qed.
Lemma floats_agree : forall prec emax (Hp : Prec_gt_0 prec) (He : Prec_lt_emax prec emax) lk hk r (x : binary_float prec emax),
  agrees (fun b => flt_set_min b lk hk r x) /\ agrees (fun b => flt_set_max b lk hk r x) /\
  agrees (fun b => @flt_default_bounds prec emax Hp He b) /\
  (forall r, agrees (fun b => vr_size_double b r) /\ agrees (fun b => vr_mid_double b r)) /\
  (forall r, agrees (fun b => vr_size_float b r) /\ agrees (fun b => vr_mid_float b r)) /\
  (forall r : vrange (binary_float prec emax), agrees (fun b => vr_size_long b r) /\ agrees (fun b => vr_mid_long b r)).
Proof.
  intros. split; [apply a_set_min; eauto|]. split; [apply a_set_max; eauto|]. split; [apply a_vr_make|].
  split; [|split]; intros r'; split.
  - apply a_vr_size_double. - apply a_vr_mid_double. - apply a_vr_size_float. - apply a_vr_mid_float.
  - apply a_vr_size_long. - apply a_vr_mid_long.
Qed.
Lemma setter_differs : exists t x, forall hk r, usual t /\ z_ok t x /\
  set_min zcmp Release opened hk (int_next t) r x = Ok (VR x (vmax r)) /\
  forall b, b <> Release -> set_min zcmp b opened hk (int_next t) r x = UB.
Proof.
  exists (ITy true 32), (2 ^ 31 - 1)%Z. intros hk r. split; [cbn; auto|]. split; [unfold z_ok; cbn; lia|].
  split; [reflexivity|]. now intros [] H.
Qed.
Lemma subscript_differs : exists ops : list (SvIter_Model.iop N), forall moved veq,
  let debug := fst (iv_run DebugThrow 4 moved veq ops (iv_start 4)) in
  let release := fst (iv_run Release 4 moved veq ops (iv_start 4)) in
  exists before, debug = before ++ [OElem (Throw user_exn)] /\ release = before ++ [OElem Terminate].
Proof.
  exists [IVec (SPush 0 7 None); IBegin 0 0; IVec (SCopy 0 1 None); IReadAt 0 0]. intros moved veq.
  exists [OVec (ODone (Ok tt)); OMove (Ok tt); OVec (ODone (Ok tt))]. split; vm_compute; reflexivity.
Qed.
