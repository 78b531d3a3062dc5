(** Lemmas behind Coll_Props.v: iterators, static_lookup, make_vector and the
    counterexamples for identifiable_item_collection. *)
From Coq Require Import List. Import ListNotations.
From Verif Require Import Base BaseFacts Iter_Model Sv_Model Lookup_Model Ident_Model Coll_Spec Sv_Proofs Ident_Proofs.

(** ** Iterators *)
Section ItL.
Context {V : Type}.
Variable arr : list (option V).

Lemma walks : forall b (vs : list V) rest parent, arr = map Some vs ++ rest ->
  di_walk b arr (length vs) (di_begin_of parent (lenN vs)) (di_end_of parent (lenN vs)) = Ok vs /\
  di_rwalk b arr (length vs) (di_end_of parent (lenN vs)) (di_begin_of parent (lenN vs)) = Ok (rev vs).
Proof.
  intros b vs rest parent ->. unfold di_begin_of, di_end_of. replace (Z.of_N (lenN vs)) with (Z.of_nat (length vs)) by (unfold lenN; lia). split.
  - pose proof (di_walk_spec b (map Some vs) [] vs parent rest eq_refl (length vs) eq_refl) as W. cbn [app length Nat.add] in W.
    rewrite map_length in W. exact W.
  - apply di_rwalk_spec. reflexivity.
Qed.

Lemma move_ok : forall parent n p q, (0 <= q <= Z.of_N (lenN arr))%Z -> di_move arr (at_pos parent n p) q = Ok (at_pos parent n q).
Proof.
  intros parent n p q H. unfold di_move. rewrite !(proj2 (Z.leb_le _ _)) by lia. reflexivity.
Qed.

Lemma release_arith : forall parent n p off, (0 <= p + off <= Z.of_N (lenN arr))%Z ->
  di_add_assign Release arr (at_pos parent n p) off = Ok (at_pos parent n (p + off)) /\
  di_add Release arr (at_pos parent n p) off = Ok (at_pos parent n (p + off)) /\
  di_sub_assign Release arr (at_pos parent n p) (- off) = Ok (at_pos parent n (p + off)) /\
  di_sub Release arr (at_pos parent n p) (- off) = Ok (at_pos parent n (p + off)) /\
  (off = 1 -> di_inc Release arr (at_pos parent n p) = Ok (at_pos parent n (p + off)))%Z /\
  (off = -1 -> di_dec Release arr (at_pos parent n p) = Ok (at_pos parent n (p + off)))%Z.
Proof.
  intros parent n p off H. unfold di_add, di_sub, di_add_assign, di_sub_assign, di_inc, di_dec, dassert. cbn [obind di_ptr at_pos].
  replace (p - - off)%Z with (p + off)%Z by lia.
  fold (at_pos parent n p). rewrite !move_ok by lia.
  repeat (split; [reflexivity|]). split; intros ->; rewrite move_ok by lia; f_equal; f_equal; lia.
Qed.

Lemma relations : forall b parent n p q,
  di_diff b (at_pos parent n p) (at_pos parent n q) = Ok (p - q)%Z /\
  di_cmp b (at_pos parent n p) (at_pos parent n q) = Ok (Z.compare p q) /\
  (di_eq (at_pos parent n p) (at_pos parent n q) = true <-> p = q).
Proof.
  intros b parent n p q. unfold di_diff, di_cmp, di_eq. cbn [at_pos di_parent di_ptr]. rewrite N.eqb_refl.
  destruct b; cbn; (split; [reflexivity|split; [reflexivity|apply Z.eqb_eq]]).
Qed.
Lemma other_container : forall b pa pb n m p q, debug b -> pa <> pb ->
  assertion_fails b (di_diff b (at_pos pa n p) (at_pos pb m q)) /\ assertion_fails b (di_cmp b (at_pos pa n p) (at_pos pb m q)).
Proof.
  intros b pa pb n m p q Hb H. unfold di_diff, di_cmp. cbn [at_pos di_parent di_ptr]. rewrite (proj2 (N.eqb_neq _ _)) by auto.
  destruct b; [now destruct Hb|split; reflexivity|split; reflexivity].
Qed.

Lemma fails_1 : forall A b (x : outcome A), debug b -> assertion_fails b (let! _ := dassert b false in x).
Proof. intros A [] x H; [now destruct H|reflexivity|reflexivity]. Qed.
Lemma passes : forall A b (x : outcome A), (let! _ := dassert b true in x) = x.
Proof. intros A [] x; reflexivity. Qed.

Lemma debug_step : forall b parent n p, debug b -> n <= lenN arr -> (0 <= p <= Z.of_N n)%Z ->
  (if (p <? Z.of_N n)%Z then di_inc b arr (at_pos parent n p) = Ok (at_pos parent n (p + 1))
   else assertion_fails b (di_inc b arr (at_pos parent n p))) /\
  (if (0 <? p)%Z then di_dec b arr (at_pos parent n p) = Ok (at_pos parent n (p - 1))
   else assertion_fails b (di_dec b arr (at_pos parent n p))).
Proof.
  intros b parent n p Hb Hn Hp. unfold di_inc, di_dec. cbn [at_pos di_ptr di_end di_begin]. fold (at_pos parent n p). split.
  - destruct (p <? Z.of_N n)%Z eqn:E.
    + rewrite (proj2 (Z.eqb_neq _ _)) by lia. cbn [negb]. rewrite passes. apply move_ok. lia.
    + rewrite (proj2 (Z.eqb_eq _ _)) by lia. apply fails_1. exact Hb.
  - destruct (0 <? p)%Z eqn:E.
    + rewrite (proj2 (Z.eqb_neq _ _)) by lia. cbn [negb]. rewrite passes. apply move_ok. lia.
    + rewrite (proj2 (Z.eqb_eq _ _)) by lia. apply fails_1. exact Hb.
Qed.

Lemma debug_jump : forall b parent n p off, debug b -> n <= lenN arr ->
  let it := at_pos parent n p in
  (if (0 <=? p + off)%Z && (p + off <? Z.of_N n)%Z
   then di_add_assign b arr it off = Ok (at_pos parent n (p + off)) /\ di_add b arr it off = Ok (at_pos parent n (p + off)) /\
        di_sub_assign b arr it (- off) = Ok (at_pos parent n (p + off)) /\ di_sub b arr it (- off) = Ok (at_pos parent n (p + off))
   else assertion_fails b (di_add_assign b arr it off) /\ assertion_fails b (di_add b arr it off) /\
        assertion_fails b (di_sub_assign b arr it (- off)) /\ assertion_fails b (di_sub b arr it (- off))).
Proof.
  intros b parent n p off Hb Hn it. unfold it, di_add, di_sub, di_add_assign, di_sub_assign. cbn [at_pos di_ptr di_end di_begin].
  fold (at_pos parent n p). replace (p - - off)%Z with (p + off)%Z by lia.
  destruct (0 <=? p + off)%Z eqn:E1; cbn [andb].
  - destruct (p + off <? Z.of_N n)%Z eqn:E2.
    + rewrite !passes, move_ok by lia. auto.
    + rewrite !passes. repeat split; apply fails_1; exact Hb.
  - repeat split; apply fails_1; exact Hb.
Qed.

Lemma index_exact : forall b parent n p off, debug b -> (0 <= p)%Z ->
  (if (0 <=? off)%Z && (p + off <? Z.of_N n)%Z
   then forall vs rest, arr = map Some vs ++ rest -> lenN vs = n ->
     exists v, nth_error vs (Z.to_nat (p + off)) = Some v /\ di_index b arr (at_pos parent n p) off = Ok v
   else assertion_fails b (di_index b arr (at_pos parent n p) off)).
Proof.
  intros b parent n p off Hb Hp. unfold di_index. cbn [at_pos di_ptr di_end].
  destruct (0 <=? off)%Z eqn:E1; cbn [andb]; [|apply fails_1; exact Hb]. rewrite passes.
  destruct (p + off <? Z.of_N n)%Z eqn:E2; [|apply fails_1; exact Hb]. rewrite passes.
  intros vs rest -> Hn. destruct (nth_error vs (Z.to_nat (p + off))) as [v|] eqn:E.
  2:{ apply nth_error_None in E. unfold lenN in Hn. lia. }
  exists v. split; [reflexivity|]. unfold raw_at. rewrite (proj2 (Z.ltb_ge _ _)) by lia.
  rewrite nth_error_app1 by (rewrite map_length; unfold lenN in Hn; lia). rewrite nth_error_map, E. reflexivity.
Qed.

Lemma deref_inside : forall vs rest parent p v, arr = map Some vs ++ rest -> nth_error vs p = Some v ->
  di_deref arr (at_pos parent (lenN vs) (Z.of_nat p)) = Ok v.
Proof.
  intros vs rest parent p v -> H. unfold di_deref, raw_at. cbn [at_pos di_ptr]. rewrite (proj2 (Z.ltb_ge _ _)) by lia. rewrite Nat2Z.id.
  rewrite nth_error_app1 by (rewrite map_length; apply nth_error_Some; congruence). rewrite nth_error_map, H. reflexivity.
Qed.
End ItL.

(** In a debug build, the end cannot be reached by arithmetic. *)
Lemma end_by_arithmetic : forall (V : Type) (arr : list (option V)) b parent n p, debug b -> n <= lenN arr -> (0 <= p <= Z.of_N n)%Z ->
  assertion_fails b (di_add b arr (at_pos parent n p) (Z.of_N n - p)) /\
  assertion_fails b (di_add_assign b arr (at_pos parent n p) (Z.of_N n - p)) /\
  di_add Release arr (at_pos parent n p) (Z.of_N n - p) = Ok (di_end_of parent n).
Proof.
  intros V arr b parent n p Hb Hn Hp. pose proof (debug_jump arr b parent n p (Z.of_N n - p) Hb Hn) as J. cbv zeta in J.
  replace (p + (Z.of_N n - p))%Z with (Z.of_N n) in J by lia. rewrite (proj2 (Z.ltb_ge _ _)) in J by lia. rewrite andb_false_r in J.
  split; [apply J|]. split; [apply J|]. destruct (release_arith arr parent n p (Z.of_N n - p)) as (_ & -> & _); [lia|].
  unfold di_end_of, at_pos. f_equal. f_equal. lia.
Qed.
Lemma end_by_arithmetic_ex : exists (v : svec N), sv_iterate DebugAbort v = Ok [1; 2; 3] /\
  di_add DebugAbort (sv_raw v) (di_begin_of 0 3) 3 = Terminate /\ di_add DebugThrow (sv_raw v) (di_begin_of 0 3) 3 = Throw logic_error /\
  di_add Release (sv_raw v) (di_begin_of 0 3) 3 = Ok (di_end_of 0 3).
Proof. exists (snd (sv_run Release 4 (fun x => x) N.eqb [SPush 0 1 None; SPush 0 2 None; SPush 0 3 None] (sv_start 4)) 0). repeat split; reflexivity. Qed.
Lemma negative_index_ex : exists (v : svec N), sv_iterate DebugAbort v = Ok [1; 2; 3] /\
  di_index Release (sv_raw v) (at_pos 0 3 2) (-1) = Ok 2 /\ di_index DebugAbort (sv_raw v) (at_pos 0 3 2) (-1) = Terminate.
Proof. exists (snd (sv_run Release 4 (fun x => x) N.eqb [SPush 0 1 None; SPush 0 2 None; SPush 0 3 None] (sv_start 4)) 0). repeat split; reflexivity. Qed.
(** Dereferencing end() is not reported: undefined behaviour, or a dead element. *)
Lemma deref_end_ex :
  let p := snd (sv_run Release 4 (fun x => x) N.eqb [SPush 0 1 None; SPush 1 2 None; SClear 1] (sv_start 4)) in
  di_deref (sv_raw (p 0)) (di_end_of 0 (sv_size (p 0))) = UB /\ di_deref (sv_raw (p 1)) (di_end_of 1 (sv_size (p 1))) = Ok 2 /\ sv_size (p 1) = 0.
Proof. repeat split; reflexivity. Qed.

(** ** static_lookup *)
Section LkL.
Context {K V : Type}.
Variables (keq : K -> K -> bool) (veq : V -> V -> bool).

Lemma set_nth_app : forall (A : Type) (a : list A) x y c, set_nth (lenN a) y (a ++ x :: c) = a ++ y :: c.
Proof.
  intros. unfold set_nth. rewrite takeN_app_exact by reflexivity. f_equal. f_equal.
  rewrite dropN_app. replace (lenN a + 1 - lenN a) with 1 by lia. rewrite dropN_all by lia. reflexivity.
Qed.
Lemma init_spec : forall (es pre : list (K * V)) d, 
  lk_init (lenN (pre ++ es)) es (pre ++ repeat d (length es)) = pre ++ es.
Proof.
  induction es as [|e es IH]; intros pre d; cbn [lk_init length repeat]; [reflexivity|].
  replace (lenN (pre ++ e :: es) - lenN es - 1) with (lenN pre) by (rewrite lenN_app, lenN_cons; lia).
  rewrite set_nth_app. specialize (IH (pre ++ [e]) d). rewrite <- !app_assoc in IH. exact IH.
Qed.
Lemma make_spec : forall d (es : list (K * V)), lk_make d es = es.
Proof. intros d es. exact (init_spec es [] d). Qed.
Lemma make_size : forall d (es : list (K * V)), lk_size (lk_make d es) = lenN es.
Proof. intros d es. unfold lk_size. now rewrite make_spec. Qed.

Lemma at_first : forall t k (v : V), lk_at keq t k = Ok v <-> first_with_key keq t k v.
Proof.
  intros t k v. unfold lk_at, first_with_key. induction t as [|[k' v'] t IH]; cbn.
  - split; [discriminate|]. intros ([|? ?] & ? & ? & E & _); discriminate.
  - destruct (keq k' k) eqn:E.
    + split.
      * intros H. injection H as <-. exists [], k', t. repeat split; auto. intros x [].
      * intros ([|x t1] & k2 & t2 & Et & Hk & Hn); injection Et; intros; subst; auto.
        specialize (Hn (k', v') (or_introl eq_refl)). cbn in Hn. congruence.
    + rewrite IH. split; intros (t1 & k2 & t2 & Et & Hk & Hn).
      * exists ((k', v') :: t1), k2, t2. subst t. repeat split; auto. intros x [<-|Hx]; auto.
      * destruct t1 as [|x t1]; injection Et; intros; subst; [congruence|]. exists t1, k2, t2. repeat split; auto. intros y Hy. apply Hn. now right.
Qed.
Lemma at_throws : forall (t : list (K * V)) k, lk_at keq t k = Throw out_of_range <-> forall x, In x t -> keq (fst x) k = false.
Proof.
  intros t k. unfold lk_at. destruct (find _ t) as [x|] eqn:E.
  - split; [discriminate|]. intros H. apply find_some in E as [E1 E2]. rewrite (H x E1) in E2. discriminate.
  - split; auto. intros _ x Hx. exact (find_none _ _ E x Hx).
Qed.

Lemma with_first : forall t v (k : K), lk_with veq t v = Ok k <-> first_with_value veq t v k.
Proof.
  intros t v k. unfold lk_with, first_with_value. induction t as [|[k' v'] t IH]; cbn.
  - split; [discriminate|]. intros ([|? ?] & ? & ? & E & _); discriminate.
  - destruct (veq v' v) eqn:E.
    + split.
      * intros H. injection H as <-. exists [], v', t. repeat split; auto. intros x [].
      * intros ([|x t1] & k2 & t2 & Et & Hk & Hn); injection Et; intros; subst; auto.
        specialize (Hn (k', v') (or_introl eq_refl)). cbn in Hn. congruence.
    + rewrite IH. split; intros (t1 & k2 & t2 & Et & Hk & Hn).
      * exists ((k', v') :: t1), k2, t2. subst t. repeat split; auto. intros x [<-|Hx]; auto.
      * destruct t1 as [|x t1]; injection Et; intros; subst; [congruence|]. exists t1, k2, t2. repeat split; auto. intros y Hy. apply Hn. now right.
Qed.
Lemma with_throws : forall (t : list (K * V)) v, lk_with veq t v = Throw out_of_range <-> forall x, In x t -> veq (snd x) v = false.
Proof.
  intros t v. unfold lk_with. destruct (find _ t) as [x|] eqn:E.
  - split; [discriminate|]. intros H. apply find_some in E as [E1 E2]. rewrite (H x E1) in E2. discriminate.
  - split; auto. intros _ x Hx. exact (find_none _ _ E x Hx).
Qed.

Lemma inverse : forall (t : list (K * V)), reflects keq -> reflects veq -> NoDup (map fst t) -> NoDup (map snd t) ->
  forall k v, lk_at keq t k = Ok v <-> lk_with veq t v = Ok k.
Proof.
  intros t Hk Hv N1 N2 k v. rewrite at_first, with_first. split.
  - intros (t1 & k' & t2 & -> & E & Hn). apply Hk in E. subst k'. exists t1, v, t2. repeat split; auto; [now apply Hv|].
    intros x Hx. rewrite map_app in N2. cbn in N2. apply NoDup_remove_2 in N2. destruct (veq (snd x) v) eqn:E; auto.
    apply Hv in E. exfalso. apply N2. apply in_app_iff. left. apply in_map_iff. eauto.
  - intros (t1 & v' & t2 & -> & E & Hn). apply Hv in E. subst v'. exists t1, k, t2. repeat split; auto; [now apply Hk|].
    intros x Hx. rewrite map_app in N1. cbn in N1. apply NoDup_remove_2 in N1. destruct (keq (fst x) k) eqn:E; auto.
    apply Hk in E. exfalso. apply N1. apply in_app_iff. left. apply in_map_iff. eauto.
Qed.

Lemma at_write : forall (t : list (K * V)) k v t', lk_at_write keq t k v = Ok t' ->
  exists t1 k' v0 t2, t = t1 ++ (k', v0) :: t2 /\ t' = t1 ++ (k', v) :: t2 /\ keq k' k = true /\
    (forall x, In x t1 -> keq (fst x) k = false) /\ lk_at keq t k = Ok v0 /\ lk_at keq t' k = Ok v.
Proof.
  intros t k v t' H. unfold lk_at_write in H. destruct (find _ t) as [x|] eqn:E; [|discriminate]. injection H as <-.
  destruct x as [k0 v0].
  assert (F : lk_at keq t k = Ok v0) by (unfold lk_at; now rewrite E).
  pose proof F as F'. apply at_first in F as (t1 & k' & t2 & -> & Hk & Hn). exists t1, k', v0, t2.
  assert (W : write_first keq (t1 ++ (k', v0) :: t2) k v = t1 ++ (k', v) :: t2).
  { clear - Hk Hn. induction t1 as [|y t1 IH]; cbn; [now rewrite Hk|]. rewrite (Hn y) by now left. f_equal. apply IH. intros; apply Hn; now right. }
  repeat split; auto. rewrite W. apply at_first. exists t1, k', t2. auto.
Qed.
Lemma at_write_throws : forall (t : list (K * V)) k v, lk_at_write keq t k v = Throw out_of_range <-> lk_at keq t k = Throw out_of_range.
Proof. intros. unfold lk_at_write, lk_at. destruct (find _ t); split; auto; discriminate. Qed.
End LkL.

(** ** make_vector *)
Section MvL.
Context {T : Type}.
Variables (max_size : N) (avail : N -> bool) (grow : N -> N -> N).
Hypothesis grow_enough : forall c n, n <= grow c n.

Lemma apply_spec : forall v a v', mv_apply max_size avail grow v a = Ok v' -> lenN (fst v) <= snd v ->
  fst v' = @contents T (fst v) [a] /\ snd v <= snd v'.
Proof.
  intros v a v' H Hc. destruct a as [n|n x]; cbn [mv_apply contents] in *.
  - unfold vec_reserve in H. destruct (max_size <? n); [discriminate|]. destruct (n <=? snd v) eqn:E; [injection H as <-; split; [reflexivity|lia]|].
    destruct (avail n); [|discriminate]. injection H as <-. cbn. split; [reflexivity|lia].
  - unfold vec_resize in H. destruct (n <=? lenN (fst v)) eqn:E.
    + injection H as <-. cbn. replace (n - lenN (fst v)) with 0 by lia. cbn. rewrite app_nil_r. split; [reflexivity|lia].
    + rewrite takeN_all by lia. destruct (max_size <? n); [discriminate|]. destruct (n <=? snd v) eqn:E2; [injection H as <-; cbn; split; [reflexivity|lia]|].
      destruct (avail _); [|discriminate]. injection H as <-. cbn. split; [reflexivity|]. specialize (grow_enough (snd v) n). lia.
Qed.
Lemma apply_cap : forall v a v', mv_apply max_size avail grow v a = Ok v' -> lenN (@fst (list T) N v) <= snd v ->
  lenN (fst v') <= snd v' /\ (forall n, a = Reserve n -> n <= snd v') /\ (forall n x, a = Size n x -> lenN (fst v') = n).
Proof.
  intros v a v' H Hc. destruct a as [n|n x]; cbn [mv_apply] in *.
  - unfold vec_reserve in H. destruct (max_size <? n); [discriminate|]. destruct (n <=? snd v) eqn:E.
    + injection H as <-. repeat split; auto; try discriminate. intros m Hm. injection Hm as <-. lia.
    + destruct (avail n); [|discriminate]. injection H as <-. cbn. repeat split; try lia; try discriminate. intros m Hm. injection Hm as <-. lia.
  - unfold vec_resize in H. destruct (n <=? lenN (fst v)) eqn:E.
    + injection H as <-. cbn. rewrite lenN_takeN. repeat split; try lia; try discriminate. intros m y Hm. injection Hm as <- <-. lia.
    + destruct (max_size <? n); [discriminate|].
      assert (L : lenN (fst v ++ repeat x (N.to_nat (n - lenN (fst v)))) = n) by (rewrite lenN_app, lenN_repeat; lia).
      destruct (n <=? snd v) eqn:E2.
      * injection H as <-. cbn [fst snd]. rewrite L. repeat split; try lia; try discriminate. intros m y Hm. now injection Hm as <- <-.
      * destruct (avail _); [|discriminate]. injection H as <-. cbn [fst snd]. rewrite L. specialize (grow_enough (snd v) n).
        repeat split; try lia; try discriminate. intros m y Hm. now injection Hm as <- <-.
Qed.

Lemma fold_spec : forall args v v', mv_fold max_size avail grow v args = Ok v' -> lenN (@fst (list T) N v) <= snd v ->
  fst v' = contents (fst v) args /\ snd v <= snd v' /\ lenN (fst v') <= snd v' /\ (forall n, In (Reserve n) args -> n <= snd v').
Proof.
  induction args as [|a args IH]; intros v v' H Hc; cbn [mv_fold] in H.
  - injection H as <-. cbn. repeat split; auto; try lia.
  - destruct (mv_apply max_size avail grow v a) as [v1| | | |] eqn:E; try discriminate. cbn [obind] in H.
    destruct (apply_spec _ _ _ E Hc) as [A B]. destruct (apply_cap _ _ _ E Hc) as (C & D & _).
    destruct (IH _ _ H C) as (F & G & I & J). split; [|split; [lia|split; [exact I|]]].
    + rewrite F, A. now destruct a.
    + intros n [->|Hn]; [|auto]. specialize (D n eq_refl). lia.
Qed.
Lemma make_ok : forall args v, make_vector max_size avail grow args = Ok v ->
  fst v = @contents T [] args /\ lenN (fst v) <= snd v /\ forall n, In (Reserve n) args -> n <= snd v.
Proof. intros args v H. destruct (fold_spec _ _ _ H) as (A & _ & B & C); [cbn; lia|]. auto. Qed.

Lemma contents_one : forall args n (x : T), filter (fun a => negb (is_reserve a)) args = [Size n x] ->
  contents [] args = repeat x (N.to_nat n).
Proof.
  assert (Z : forall args (l : list T), filter (fun a => negb (is_reserve a)) args = [] -> contents l args = l).
  { induction args as [|[m|m y] args IH]; intros l H; cbn in *; auto. discriminate. }
  induction args as [|[m|m y] args IH]; intros n x H; cbn in *; [discriminate|auto|].
  injection H as <- <- H. rewrite Z by exact H. unfold takeN. rewrite firstn_nil. cbn [app]. f_equal. unfold lenN. cbn. lia.
Qed.
Lemma make_one : forall args n (x : T) v, filter (fun a => negb (is_reserve a)) args = [Size n x] ->
  make_vector max_size avail grow args = Ok v ->
  fst v = repeat x (N.to_nat n) /\ n <= snd v /\ forall m, In (Reserve m) args -> m <= snd v.
Proof.
  intros args n x v Hf H. destruct (make_ok _ _ H) as (A & B & C). rewrite (contents_one _ _ _ Hf) in A.
  split; [exact A|]. split; [|exact C]. rewrite A, lenN_repeat in B. lia.
Qed.

(** Failures are only those of std::vector *)
Lemma make_fails : forall args, match @make_vector T max_size avail grow args with
  | Ok _ => True
  | Throw length_error => exists a, In a args /\ max_size < match a with Reserve n => n | Size n _ => n end
  | Throw bad_alloc => exists n, avail n = false
  | _ => False end.
Proof.
  intros args. unfold make_vector. generalize (@nil T, 0) as v. induction args as [|a args IH]; intros v; cbn [mv_fold]; auto.
  destruct (mv_apply max_size avail grow v a) as [v1|e| | |] eqn:E; cbn [obind].
  - specialize (IH v1). destruct (mv_fold _ _ _ v1 args) as [|[]| | |]; auto. destruct IH as (x & Hx & Hm). exists x. split; auto. now right.
  - destruct a as [n|n x]; cbn [mv_apply] in E; unfold vec_reserve, vec_resize in E.
    + destruct (max_size <? n) eqn:E1; [injection E as <-; exists (Reserve n); split; [now left|lia]|].
      destruct (n <=? snd v); [discriminate|]. destruct (avail n) eqn:E2; [discriminate|]. injection E as <-. eauto.
    + destruct (n <=? lenN (fst v)); [discriminate|]. destruct (max_size <? n) eqn:E1; [injection E as <-; exists (Size n x); split; [now left|lia]|].
      destruct (n <=? snd v); [discriminate|]. destruct (avail _) eqn:E2; [discriminate|]. injection E as <-. eauto.
  - destruct a as [n|n x]; cbn [mv_apply] in E; unfold vec_reserve, vec_resize in E;
    repeat match type of E with (if ?c then _ else _) = _ => destruct c end; discriminate.
  - destruct a as [n|n x]; cbn [mv_apply] in E; unfold vec_reserve, vec_resize in E;
    repeat match type of E with (if ?c then _ else _) = _ => destruct c end; discriminate.
  - destruct a as [n|n x]; cbn [mv_apply] in E; unfold vec_reserve, vec_resize in E;
    repeat match type of E with (if ?c then _ else _) = _ => destruct c end; discriminate.
Qed.
End MvL.
Lemma make_succeeds {T} max_size avail grow : (forall n, avail n = true) ->
  forall args, (forall a, In a args -> match a with Reserve n => n | Size n _ => n end <= max_size) ->
  exists v, @make_vector T max_size avail grow args = Ok v.
Proof.
  intros A args. unfold make_vector. generalize (@nil T, 0) as v. induction args as [|a args IH]; intros v H; cbn [mv_fold]; [eauto|].
  assert (E : exists v1, mv_apply max_size avail grow v a = Ok v1).
  { specialize (H a (or_introl eq_refl)). destruct a as [n|n x]; cbn [mv_apply]; unfold vec_reserve, vec_resize.
    - rewrite (proj2 (N.ltb_ge _ _)) by lia. rewrite A. destruct (n <=? snd v); eauto.
    - rewrite (proj2 (N.ltb_ge _ _)) by lia. rewrite A. destruct (n <=? lenN (fst v)), (n <=? snd v); eauto. }
  destruct E as [v1 ->]. cbn [obind]. apply IH. intros b B. apply H. now right.
Qed.

Lemma mv_order_matters :
  make_vector (2 ^ 60) (fun _ => true) (fun _ n => n) [Size 3 7; Size 5 8] = Ok ([7; 7; 7; 8; 8], 5) /\
  make_vector (2 ^ 60) (fun _ => true) (fun _ n => n) [Size 5 8; Size 3 7] = Ok ([8; 8; 8], 5).
Proof. split; reflexivity. Qed.

(** ** identifiable_item_collection: what goes wrong *)
Definition it1 := mk_item 1 10. Definition it2 := mk_item 2 20. Definition it3 := mk_item 3 30.

Lemma emplace_breaks : exists c, ic_run DebugAbort
    [IEmplace it1 all_ok; IAssignRef 1 (mk_item 2 10)] ic_empty_coll = ([ROk (Ok tt); ROk (Ok tt)], c) /\
  ic_at_id c 1 = Ok (mk_item 2 10) /\ ic_contains c 2 = false.
Proof. eexists. split; [vm_compute; reflexivity|]. vm_compute. repeat split. Qed.
(** ... and then erasing destroys the wrong item: iteration reads a destroyed one. *)
Lemma emplace_dangles : exists c, ic_run Release
    [IEmplace it1 all_ok; IInsert it2 all_ok; IAssignRef 1 (mk_item 2 10); IErase 2] ic_empty_coll =
    ([ROk (Ok tt); ROk (Ok tt); ROk (Ok tt); RBool (Ok true)], c) /\ ic_iterate Release c = UB /\ ic_size c = 1.
Proof. eexists. split; [vm_compute; reflexivity|]. vm_compute. repeat split. Qed.

Lemma insert_each_not_atomic : exists c c', ic_run DebugAbort [IInsert it1 all_ok] ic_empty_coll = ([ROk (Ok tt)], c) /\
  ic_insert_each DebugAbort c [(it2, all_ok); (it3, all_ok); (it1, all_ok)] = (Throw logic_error, c') /\
  ic_iterate DebugAbort c = Ok [it1] /\ ic_iterate DebugAbort c' = Ok [it1; it2; it3].
Proof. do 2 eexists. split; [vm_compute; reflexivity|]. split; [vm_compute; reflexivity|]. vm_compute. repeat split. Qed.

(** A vector allocation that fails after the map insertion *)
Lemma push_failure : exists c c', ic_run Release [IInsert it1 all_ok] ic_empty_coll = ([ROk (Ok tt)], c) /\
  ic_insert Release c it2 (mk_allocs true true false) = (Throw bad_alloc, c') /\
  ic_contains c' 2 = true /\ ic_size c' = 2 /\ ic_iterate Release c' = Ok [it1] /\
  fst (ic_erase c' 2) = Ok false /\ fst (ic_excise Release c' 2) = UB /\ fst (ic_excise DebugAbort c' 2) = Terminate /\
  fst (ic_insert DebugAbort c' it3 all_ok) = Terminate.
Proof. do 2 eexists. split; [vm_compute; reflexivity|]. split; [vm_compute; reflexivity|]. vm_compute. repeat split. Qed.

Lemma throws_unchanged : forall (V : Type) b cap (moved : V -> V) veq ops xs q o e, cap < 2 ^ 63 ->
  vec_run cap moved veq ops (fun _ => []) = Some (xs, q) -> vec_step cap moved veq o q <> None -> (forall i j k, o <> SCopy i j (Some k)) ->
  exists p, sv_run b cap moved veq ops (sv_start cap) = (xs, p) /\
    (fst (sv_step b cap moved veq o p) = ODone (Throw e) -> forall i, shows cap (snd (sv_step b cap moved veq o p) i) (q i)).
Proof.
  intros V b cap moved veq ops xs q o e Hc E Ho Hk.
  destruct (run_refines b cap moved veq ops (sv_start cap) (fun _ => []) xs q Hc) as (p & Hp & HR); auto.
  { intros i. apply R_default. }
  exists p. split; auto. destruct (vec_step cap moved veq o q) as [[x q']|] eqn:E1; [|congruence].
  destruct (step_refines b cap moved veq o p q x q' Hc HR E1) as (p' & -> & HR'). cbn [fst snd]. intros ->.
  assert (q' = q) as ->; [|intros i; apply (R_shows cap moved veq), HR'].
  clear - E1 Hk. destruct o as [| | | | | | |? ? [k0|]| | | | | | | | | |]; try (exfalso; eapply Hk; reflexivity); cbn [vec_step] in E1; repeat match type of E1 with
    | context[match ?c with _ => _ end] => destruct c
    end; try discriminate; injection E1; congruence.
Qed.
Lemma copy_throws : forall (V : Type) b cap (moved : V -> V) veq ops xs q i j k, cap < 2 ^ 63 ->
  vec_run cap moved veq ops (fun _ => []) = Some (xs, q) -> k < lenN (q j) ->
  exists p p', sv_run b cap moved veq ops (sv_start cap) = (xs, p) /\
    sv_step b cap moved veq (SCopy i j (Some k)) p = (ODone (Throw user_exn), p') /\
    shows cap (p' i) (takeN (lenN (q i)) (takeN k (q j) ++ dropN k (q i))) /\ forall n, n <> i -> shows cap (p' n) (q n).
Proof.
  intros V b cap moved veq ops xs q i j k Hc E K.
  destruct (run_refines b cap moved veq ops (sv_start cap) (fun _ => []) xs q Hc) as (p & Hp & HR); auto.
  { intros n. apply R_default. }
  destruct (step_refines b cap moved veq (SCopy i j (Some k)) p q (ODone (Throw user_exn)) (upd q i (takeN (lenN (q i)) (takeN k (q j) ++ dropN k (q i)))) Hc HR) as (p' & Hs & HR').
  { cbn [vec_step]. rewrite (proj2 (N.ltb_lt _ _)) by lia. reflexivity. }
  exists p, p'. split; auto. split; auto. split.
  - pose proof (R_shows cap moved veq _ _ (HR' i)) as S. unfold upd in S. rewrite N.eqb_refl in S. exact S.
  - intros n D. pose proof (R_shows cap moved veq _ _ (HR' n)) as S. unfold upd in S. rewrite (proj2 (N.eqb_neq _ _)) in S by exact D. exact S.
Qed.
