(** Lemmas about points. *)
From Verif Require Import Base BaseFacts Range_Model Range_Spec Point_Model Geo_Spec.

Section P.
Context {V : Type}.
Implicit Types p q : point V.
Implicit Types vals vs ws : list V.

Lemma set_ok : forall p i v, (i < length p)%nat -> pt_set p i v = Ok (firstn i p ++ Some v :: skipn (S i) p).
Proof.
  induction p as [|c p IH]; intros [|i] v H; cbn [length] in H; try lia; cbn [pt_set firstn skipn app]; [reflexivity|].
  rewrite IH by lia. reflexivity.
Qed.
Lemma set_ub : forall p i v, (length p <= i)%nat -> pt_set p i v = UB.
Proof.
  induction p as [|c p IH]; intros [|i] v H; cbn [length] in H; try lia; cbn [pt_set]; try reflexivity.
  rewrite IH by lia. reflexivity.
Qed.
Lemma set_length : forall p i v q, pt_set p i v = Ok q -> length q = length p.
Proof.
  intros p i v q H. destruct (Nat.lt_ge_cases i (length p)) as [L|L].
  - rewrite set_ok in H by assumption. assert (q = firstn i p ++ Some v :: skipn (S i) p) by congruence. subst q.
    rewrite app_length, firstn_length. cbn [length]. rewrite skipn_length. lia.
  - rewrite set_ub in H by assumption. discriminate.
Qed.
Lemma set_get : forall p i v q, pt_set p i v = Ok q ->
  pt_get q i = Ok v /\ forall j, j <> i -> pt_get q j = pt_get p j.
Proof.
  intros p i v q H. destruct (Nat.lt_ge_cases i (length p)) as [L|L].
  - rewrite set_ok in H by assumption. assert (q = firstn i p ++ Some v :: skipn (S i) p) by congruence. subst q.
    assert (F : length (firstn i p) = i) by (rewrite firstn_length; lia). split.
    + unfold pt_get. rewrite nth_error_app2 by lia. rewrite F, Nat.sub_diag. reflexivity.
    + intros j J. unfold pt_get. rewrite <- (firstn_skipn i p) at 3.
      destruct (Nat.lt_ge_cases j i).
      * rewrite !nth_error_app1 by lia. reflexivity.
      * rewrite !nth_error_app2 by lia. rewrite F.
        destruct (j - i)%nat as [|k] eqn:E; [lia|]. cbn [nth_error].
        assert (D : skipn i p = match nth_error p i with Some c => [c] | None => [] end ++ skipn (S i) p).
        { clear. revert i. induction p as [|c p IH]; intros [|i]; try reflexivity. exact (IH i). }
        rewrite D. destruct (nth_error p i) eqn:N; [reflexivity|].
        apply nth_error_None in N. lia.
  - rewrite set_ub in H by assumption. discriminate.
Qed.

Lemma skip_skip : forall (l : list (option V)) a b, skipn a (skipn b l) = skipn (b + a) l.
Proof.
  induction l as [|c l IH]; intros a [|b]; try reflexivity; [destruct a; reflexivity|]. exact (IH a b).
Qed.
Lemma copy_ok : forall vals p i, (i + length vals <= length p)%nat ->
  copy_init p i vals = Ok (firstn i p ++ map Some vals ++ skipn (i + length vals) p).
Proof.
  induction vals as [|v vals IH]; intros p i H; cbn [copy_init length map app] in *.
  - rewrite Nat.add_0_r. rewrite firstn_skipn. reflexivity.
  - rewrite set_ok by lia. cbn [obind].
    assert (F : length (firstn i p) = i) by (rewrite firstn_length; lia).
    rewrite IH.
    + f_equal. rewrite firstn_app, F. rewrite firstn_all2 by lia.
      replace (S i - i)%nat with 1%nat by lia. cbn [firstn]. rewrite <- app_assoc. cbn [app]. f_equal. f_equal. f_equal.
      rewrite skipn_app, F. rewrite skipn_all2 by lia.
      replace (S i + length vals - i)%nat with (S (length vals)) by lia.
      remember (skipn (S i) p) as rest eqn:ER. cbn [skipn app]. subst rest. rewrite skip_skip. f_equal. lia.
    + rewrite app_length, F. cbn [length]. rewrite skipn_length. lia.
Qed.
Lemma copy_ub : forall vals p i, (length p < i + length vals)%nat -> (i <= length p)%nat -> copy_init p i vals = UB.
Proof.
  induction vals as [|v vals IH]; intros p i H L; cbn [copy_init length] in *; [lia|].
  destruct (Nat.eq_dec i (length p)) as [E|E].
  - rewrite set_ub by lia. reflexivity.
  - rewrite set_ok by lia. cbn [obind]. apply IH.
    + rewrite app_length, firstn_length. cbn [length]. rewrite skipn_length. lia.
    + rewrite app_length, firstn_length. cbn [length]. rewrite skipn_length. lia.
Qed.
Lemma init_copy : forall others p i v, init_from p i v others = copy_init p i (v :: others).
Proof.
  induction others as [|w others IH]; intros p i v; cbn [init_from copy_init].
  - reflexivity.
  - destruct (pt_set p i v); cbn [obind]; auto. rewrite IH. rewrite Nat.add_1_r. reflexivity.
Qed.
Lemma list_ok : forall D vals, (length vals <= D)%nat ->
  pt_of_list D vals = Ok (map Some vals ++ repeat None (D - length vals)).
Proof.
  intros. unfold pt_of_list, pt_default. rewrite copy_ok by (rewrite repeat_length; lia). cbn [firstn app]. do 2 f_equal.
  rewrite Nat.add_0_l. replace D with (length vals + (D - length vals))%nat at 1 by lia.
  rewrite repeat_app. rewrite skipn_app, repeat_length. rewrite skipn_all2 by (rewrite repeat_length; lia).
  rewrite Nat.sub_diag. reflexivity.
Qed.
Lemma list_ub : forall D vals, (D < length vals)%nat -> pt_of_list D vals = UB.
Proof. intros. unfold pt_of_list, pt_default. apply copy_ub; rewrite ?repeat_length; lia. Qed.

Lemma get_map : forall vals i v, nth_error vals i = Some v -> pt_get (map Some vals) i = Ok v.
Proof. intros. unfold pt_get. rewrite (map_nth_error Some i vals H). reflexivity. Qed.
Lemma map_point : forall vals, is_point (map Some vals) vals.
Proof. intros. split; [apply map_length|apply get_map]. Qed.
Lemma point_map : forall p vals, is_point p vals -> p = map Some vals.
Proof.
  intros p vals [L G]. unfold pt_dimensions in L. revert vals L G. induction p as [|c p IH]; intros [|v vals] L G; try discriminate; [reflexivity|].
  cbn [map]. f_equal.
  - specialize (G 0%nat v eq_refl). unfold pt_get in G. cbn [nth_error] in G. destruct c; cbn [use] in G; congruence.
  - apply IH; [cbn [length] in L; lia|]. intros i w H. exact (G (S i) w H).
Qed.

(** From exactly D values. *)
Lemma exact_values : forall D v vals, length (v :: vals) = D ->
  is_point (pt_of_array (v :: vals)) (v :: vals) /\
  (exists p, pt_of_list D (v :: vals) = Ok p /\ is_point p (v :: vals)) /\
  (exists p, pt_of_args D v vals = Ok p /\ is_point p (v :: vals)) /\
  (exists p, pt_nd_of_args D (v :: vals) = Ok p /\ is_point p (v :: vals)) /\
  (exists p, pt_nd_of_list D (v :: vals) = Ok p /\ is_point p (v :: vals)) /\
  is_point (pt_nd_of_array (v :: vals)) (v :: vals).
Proof.
  intros D v vals L. assert (E : pt_of_list D (v :: vals) = Ok (map Some (v :: vals))).
  { rewrite list_ok by lia. rewrite <- L, Nat.sub_diag. cbn [repeat]. rewrite app_nil_r. reflexivity. }
  assert (A : pt_of_args D v vals = Ok (map Some (v :: vals))).
  { unfold pt_of_args. rewrite init_copy. exact E. }
  pose proof (map_point (v :: vals)) as M.
  repeat split; try exact (proj1 M); try exact (proj2 M); eauto.
Qed.

(** From another number of values. *)
Lemma other_values_list : forall D vals, (0 < D)%nat ->
  match Nat.leb (length vals) D with
  | true => exists p, pt_of_list D vals = Ok p /\ pt_dimensions p = D /\
      (forall i v, nth_error vals i = Some v -> pt_get p i = Ok v) /\
      (forall i, (length vals <= i)%nat -> pt_get p i = UB) /\
      forall byte_type, pt_copy byte_type p = (if byte_type || Nat.eqb (length vals) D then Ok p else UB)
  | false => pt_of_list D vals = UB
  end.
Proof.
  intros D vals P. destruct (Nat.leb_spec (length vals) D) as [L|L]; [|apply list_ub; lia].
  eexists. split; [apply list_ok; assumption|]. split; [|split; [|split]].
  - unfold pt_dimensions. rewrite app_length, map_length, repeat_length. lia.
  - intros i v H. unfold pt_get. assert (i < length vals)%nat by (apply nth_error_Some; congruence).
    rewrite nth_error_app1 by (rewrite map_length; lia). rewrite (map_nth_error Some i vals H). reflexivity.
  - intros i H. unfold pt_get. rewrite nth_error_app2 by (rewrite map_length; lia). rewrite map_length.
    destruct (nth_error (repeat None (D - length vals)) (i - length vals)) as [c|] eqn:E; [|reflexivity].
    apply nth_error_In, repeat_spec in E. subst c. reflexivity.
  - intros [|]; unfold pt_copy; cbn [orb]; [reflexivity|].
    rewrite forallb_app. replace (forallb _ (map Some vals)) with true.
    2: { symmetry. apply forallb_forall. intros x H. apply in_map_iff in H. destruct H as (v & <- & _). reflexivity. }
    cbn [andb]. destruct (Nat.eqb_spec (length vals) D) as [E|E].
    + rewrite E, Nat.sub_diag. reflexivity.
    + destruct (D - length vals)%nat eqn:F; [lia|]. reflexivity.
Qed.
Lemma other_values : forall D vals make, (0 < D)%nat -> In make [pt_of_list D; pt_nd_of_args D; pt_nd_of_list D] ->
  match Nat.leb (length vals) D with
  | true => exists p, make vals = Ok p /\ pt_dimensions p = D /\
      (forall i v, nth_error vals i = Some v -> pt_get p i = Ok v) /\
      (forall i, (length vals <= i)%nat -> pt_get p i = UB) /\
      forall byte_type, pt_copy byte_type p = (if byte_type || Nat.eqb (length vals) D then Ok p else UB)
  | false => make vals = UB
  end.
Proof.
  intros D vals make P [<-|[<-|[<-|[]]]]; exact (other_values_list D vals P).
Qed.

Lemma set_one : forall p i v,
  ((i < pt_dimensions p)%nat -> exists q, pt_set p i v = Ok q /\ pt_dimensions q = pt_dimensions p /\
     pt_get q i = Ok v /\ forall j, j <> i -> pt_get q j = pt_get p j) /\
  ((pt_dimensions p <= i)%nat -> pt_set p i v = UB /\ pt_get p i = UB).
Proof.
  intros p i v. unfold pt_dimensions. split; intros H.
  - eexists. split; [apply set_ok; assumption|]. pose proof (set_ok p i v H) as E.
    split; [exact (set_length _ _ _ _ E)|]. exact (set_get _ _ _ _ E).
  - split; [apply set_ub; assumption|]. unfold pt_get. rewrite (proj2 (nth_error_None p i) H). reflexivity.
Qed.
Lemma set_history : forall sets p, Forall (fun s => (fst s < pt_dimensions p)%nat) sets ->
  exists q, set_all p sets = Ok q /\ pt_dimensions q = pt_dimensions p /\
    forall i, pt_get q i = last_set i sets (pt_get p i).
Proof.
  induction sets as [|[j v] sets IH]; intros p F.
  - exists p. repeat split.
  - inversion F as [|? ? F1 F2]. subst. cbn [fst] in F1.
    destruct (proj1 (set_one p j v) F1) as (q & E & L & G & O).
    cbn [set_all last_set]. rewrite E. cbn [obind].
    destruct (IH q) as (q' & E' & L' & G').
    { rewrite L. exact F2. }
    exists q'. split; [exact E'|]. split; [congruence|]. intros i. rewrite G'.
    destruct (Nat.eqb_spec j i) as [->|N]; [rewrite G|rewrite O by congruence]; reflexivity.
Qed.

(** Comparison. *)
Section Cmp.
Variable cmp : V -> V -> option comparison.

Lemma agree_S : forall x y vs ws i, cmp x y = Some Eq -> agree_before cmp vs ws i -> agree_before cmp (x :: vs) (y :: ws) (S i).
Proof. intros x y vs ws i E A [|j] u v L X Y; cbn [nth_error] in *; [congruence|]. apply (A j); auto; lia. Qed.
Lemma agree_0 : forall vs ws, agree_before cmp vs ws 0.
Proof. intros ? ? ? ? ? H. lia. Qed.

Lemma cmp_map : forall vs ws, length vs = length ws ->
  exists c, pt_cmp cmp (map Some vs) (map Some ws) = Ok c /\
    pt_eq cmp (map Some vs) (map Some ws) = Ok (match c with Some Eq => true | _ => false end) /\
    (c = Some Eq /\ agree_before cmp vs ws (length vs) \/ c <> Some Eq /\ exists i, decided_at cmp vs ws i c).
Proof.
  induction vs as [|x vs IH]; intros [|y ws] L; try discriminate.
  - exists (Some Eq). repeat split. left. split; [reflexivity|apply agree_0].
  - cbn [map pt_cmp pt_eq use obind].
    assert (Z : forall c, cmp x y = c -> decided_at cmp (x :: vs) (y :: ws) 0 c).
    { intros c E. split; [apply agree_0|]. exists x, y. auto. }
    destruct (cmp x y) as [[| |]|] eqn:E.
    + destruct (IH ws) as (c & A & B & C); [cbn [length] in L; lia|]. exists c. split; [exact A|]. split; [exact B|].
      destruct C as [[-> C]|[N (i & C & u & v & X & Y & D)]].
      * left. split; [reflexivity|]. cbn [length]. apply agree_S; assumption.
      * right. split; [exact N|]. exists (S i). split; [apply agree_S; assumption|]. exists u, v. auto.
    + exists (Some Lt). repeat split. right. split; [discriminate|]. exists 0%nat. apply Z. reflexivity.
    + exists (Some Gt). repeat split. right. split; [discriminate|]. exists 0%nat. apply Z. reflexivity.
    + exists None. repeat split. right. split; [discriminate|]. exists 0%nat. apply Z. reflexivity.
Qed.

Lemma compare_points : forall p q vs ws, is_point p vs -> is_point q ws -> length vs = length ws ->
  exists c, pt_cmp cmp p q = Ok c /\
    pt_eq cmp p q = Ok (match c with Some Eq => true | _ => false end) /\
    (c = Some Eq /\ agree_before cmp vs ws (length vs) \/ c <> Some Eq /\ exists i, decided_at cmp vs ws i c).
Proof. intros p q vs ws P Q L. rewrite (point_map _ _ P), (point_map _ _ Q). apply cmp_map; assumption. Qed.

Variables (ok : V -> Prop) (le : V -> V -> Prop).
Hypothesis O : ordered ok cmp le.

Lemma cmp_swap : forall x y, ok x -> ok y -> cmp y x = option_map CompOpp (cmp x y).
Proof.
  intros x y X Y. destruct O as [_ C]. pose proof (C x y X Y) as A. pose proof (C y x Y X) as B.
  destruct (cmp x y) as [[| |]|], (cmp y x) as [[| |]|]; cbn [option_map CompOpp]; try reflexivity; exfalso; tauto.
Qed.
Lemma cmp_some : forall x y, ok x -> ok y -> cmp x y <> None.
Proof. intros x y X Y E. destruct O as [_ C]. pose proof (C x y X Y) as A. rewrite E in A. exact A. Qed.
Lemma cmp_compose : forall x y z c d, ok x -> ok y -> ok z -> cmp x y = Some c -> cmp y z = Some d ->
  (c = Eq -> cmp x z = Some d) /\ (d = Eq -> cmp x z = Some c) /\ (c = Lt -> d = Lt -> cmp x z = Some Lt).
Proof.
  intros x y z c d X Y Z E F. destruct O as [[T R] C].
  pose proof (C x y X Y) as A. pose proof (C y z Y Z) as B. pose proof (C x z X Z) as D. rewrite E in A. rewrite F in B.
  pose proof (R x y z X Y Z). pose proof (R z y x Z Y X). pose proof (R y x z Y X Z). pose proof (R z x y Z X Y).
  pose proof (R x z y X Z Y). pose proof (R y z x Y Z X).
  destruct c, d; repeat split; intros; try discriminate; destruct (cmp x z) as [[| |]|]; try reflexivity; exfalso; tauto.
Qed.

Lemma lex_total : forall vs ws, length vs = length ws -> Forall ok vs -> Forall ok ws ->
  exists c, pt_cmp cmp (map Some vs) (map Some ws) = Ok (Some c) /\ pt_cmp cmp (map Some ws) (map Some vs) = Ok (Some (CompOpp c)).
Proof.
  induction vs as [|x vs IH]; intros [|y ws] L F G; try discriminate.
  - exists Eq. split; reflexivity.
  - inversion F. inversion G. subst. cbn [map pt_cmp use obind]. rewrite (cmp_swap x y) by assumption.
    assert (NN : cmp x y <> None) by (apply cmp_some; assumption). destruct (cmp x y) as [[| |]|]; cbn [option_map CompOpp].
    + apply IH; auto.
    + exists Lt. split; reflexivity.
    + exists Gt. split; reflexivity.
    + exfalso. apply NN. reflexivity.
Qed.
Lemma lex_compose : forall us vs ws, length us = length vs -> length vs = length ws -> Forall ok us -> Forall ok vs -> Forall ok ws ->
  forall c d, pt_cmp cmp (map Some us) (map Some vs) = Ok (Some c) -> pt_cmp cmp (map Some vs) (map Some ws) = Ok (Some d) ->
  (c = Eq -> pt_cmp cmp (map Some us) (map Some ws) = Ok (Some d)) /\ (d = Eq -> pt_cmp cmp (map Some us) (map Some ws) = Ok (Some c)) /\
  (c = Lt -> d = Lt -> pt_cmp cmp (map Some us) (map Some ws) = Ok (Some Lt)).
Proof.
  induction us as [|x us IH]; intros [|y vs] [|z ws] L M F G H c d A B; try discriminate.
  - cbn in A, B. assert (c = Eq) by congruence. assert (d = Eq) by congruence. subst. cbn. repeat split; congruence.
  - inversion F. inversion G. inversion H. subst. cbn [map pt_cmp use obind] in *.
    destruct (cmp x y) as [e|] eqn:E1. 2: { exfalso. revert E1. apply cmp_some; assumption. }
    destruct (cmp y z) as [f|] eqn:E2. 2: { exfalso. revert E2. apply cmp_some; assumption. }
    pose proof (cmp_compose x y z e f) as K. destruct K as (K1 & K2 & K3); auto.
    destruct e, f.
    + rewrite K1 by reflexivity. apply (IH vs); auto.
    + rewrite K1 by reflexivity. assert (d = Lt) by congruence. subst. repeat split; try congruence.
    + rewrite K1 by reflexivity. assert (d = Gt) by congruence. subst. repeat split; try congruence.
    + rewrite K2 by reflexivity. assert (c = Lt) by congruence. subst. repeat split; try congruence.
    + rewrite K3 by reflexivity. assert (c = Lt) by congruence. assert (d = Lt) by congruence. subst. repeat split; congruence.
    + assert (c = Lt) by congruence. assert (d = Gt) by congruence. subst. repeat split; congruence.
    + rewrite K2 by reflexivity. assert (c = Gt) by congruence. subst. repeat split; try congruence.
    + assert (c = Gt) by congruence. assert (d = Lt) by congruence. subst. repeat split; congruence.
    + assert (c = Gt) by congruence. assert (d = Gt) by congruence. subst. repeat split; congruence.
Qed.

Lemma points_ordered : forall p q r us vs ws, is_point p us -> is_point q vs -> is_point r ws ->
  length us = length vs -> length vs = length ws -> Forall ok us -> Forall ok vs -> Forall ok ws ->
  (exists c, pt_cmp cmp p q = Ok (Some c) /\ pt_cmp cmp q p = Ok (Some (CompOpp c))) /\
  (pt_cmp cmp p q = Ok (Some Lt) -> pt_cmp cmp q r = Ok (Some Lt) -> pt_cmp cmp p r = Ok (Some Lt)) /\
  (pt_cmp cmp p q = Ok (Some Eq) -> pt_cmp cmp q r = Ok (Some Eq) -> pt_cmp cmp p r = Ok (Some Eq)) /\
  (pt_cmp cmp p q = Ok (Some Eq) -> pt_cmp cmp p r = pt_cmp cmp q r).
Proof.
  intros p q r us vs ws P Q R L M F G H. rewrite (point_map _ _ P), (point_map _ _ Q), (point_map _ _ R).
  split; [|split; [|split]].
  - apply lex_total; auto.
  - intros A B. exact (proj2 (proj2 (lex_compose us vs ws L M F G H _ _ A B)) eq_refl eq_refl).
  - intros A B. exact (proj1 (lex_compose us vs ws L M F G H _ _ A B) eq_refl).
  - intros A. destruct (lex_total vs ws) as (d & B & _); auto. rewrite B.
    exact (proj1 (lex_compose us vs ws L M F G H _ _ A B) eq_refl).
Qed.
End Cmp.
Lemma zero_point (zero : V) D : is_point (pt_zero zero D) (repeat zero D).
Proof.
  split; [unfold pt_dimensions, pt_zero; rewrite !repeat_length; reflexivity|].
  intros i v H. assert (L : (i < D)%nat) by (rewrite <- (repeat_length zero D); apply nth_error_Some; congruence).
  unfold pt_get, pt_zero. rewrite nth_error_repeat in * by assumption. cbn [use]. congruence.
Qed.
Lemma default_point D i : pt_dimensions (@pt_default V D) = D /\ pt_get (@pt_default V D) i = UB.
Proof.
  split; [apply repeat_length|]. unfold pt_get, pt_default. destruct (nth_error (repeat None D) i) as [c|] eqn:E; [|reflexivity].
  apply nth_error_In, repeat_spec in E. subst c. reflexivity.
Qed.
Lemma named_dims p :
  (pt_get_dim p dim_x = pt_get p 0 /\ pt_get_dim p dim_y = pt_get p 1 /\ pt_get_dim p dim_z = pt_get p 2 /\ pt_get_dim p dim_t = pt_get p 3) /\
  forall v, pt_set_dim p dim_x v = pt_set p 0 v /\ pt_set_dim p dim_y v = pt_set p 1 v /\ pt_set_dim p dim_z v = pt_set p 2 v /\ pt_set_dim p dim_t v = pt_set p 3 v.
Proof. repeat split. Qed.
End P.
