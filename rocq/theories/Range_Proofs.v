From Verif Require Import Base BaseFacts Range_Model Range_Spec.

Section P.
Context {T : Type} (ok : T -> Prop) (cmp : T -> T -> option comparison) (le : T -> T -> Prop).
Hypothesis O : ordered ok cmp le.
Implicit Types x y z : T.
Implicit Types r s : vrange T.

Lemma tot x y : ok x -> ok y -> le x y \/ le y x.
Proof. exact (to_total _ _ (proj1 O) x y). Qed.
Lemma trans x y z : ok x -> ok y -> ok z -> le x y -> le y z -> le x z.
Proof. exact (to_trans _ _ (proj1 O) x y z). Qed.
Lemma refl x : ok x -> le x x.
Proof. intros H. destruct (tot x x H H); auto. Qed.
Lemma lt_iff x y : ok x -> ok y -> c_lt cmp x y = true <-> ~ le y x.
Proof. intros X Y. pose proof (proj2 O x y X Y) as C. unfold c_lt. destruct (cmp x y) as [[]|]; split; intros; try tauto; try discriminate. Qed.
Lemma gt_iff x y : ok x -> ok y -> c_gt cmp x y = true <-> ~ le x y.
Proof. intros X Y. pose proof (proj2 O x y X Y) as C. unfold c_gt. destruct (cmp x y) as [[]|]; split; intros; try tauto; try discriminate. Qed.
Lemma le_iff x y : ok x -> ok y -> c_le cmp x y = true <-> le x y.
Proof. intros X Y. pose proof (proj2 O x y X Y) as C. unfold c_le. destruct (cmp x y) as [[]|]; split; intros; try tauto; try discriminate. Qed.
Lemma ge_iff x y : ok x -> ok y -> c_ge cmp x y = true <-> le y x.
Proof. intros X Y. pose proof (proj2 O x y X Y) as C. unfold c_ge. destruct (cmp x y) as [[]|]; split; intros; try tauto; try discriminate. Qed.
Lemma eq_iff x y : ok x -> ok y -> c_eq cmp x y = true <-> le x y /\ le y x.
Proof. intros X Y. pose proof (proj2 O x y X Y) as C. unfold c_eq. destruct (cmp x y) as [[]|]; split; intros; try tauto; try discriminate. Qed.
Lemma nle x y : ok x -> ok y -> ~ le x y -> le y x.
Proof. intros X Y. destruct (tot x y X Y); tauto. Qed.
Lemma le_dec x y : ok x -> ok y -> le x y \/ ~ le x y.
Proof. intros X Y. destruct (c_le cmp x y) eqn:E; [left; apply le_iff; auto|right; intros H; apply le_iff in H; auto; congruence]. Qed.
Lemma not_true (b : bool) : b <> true <-> b = false.
Proof. destruct b; split; congruence. Qed.
Lemma lt_of_iff x y : ok x -> ok y -> lt_of le x y <-> ~ le y x.
Proof. intros X Y. unfold lt_of. pose proof (nle y x Y X). tauto. Qed.
Lemma nlt_iff x y : ok x -> ok y -> c_lt cmp x y = false <-> le y x.
Proof. intros X Y. rewrite <- not_true, lt_iff by auto. pose proof (le_dec y x Y X). tauto. Qed.

(** C68 *)
Lemma below_iff lk r x : ok (vmin r) -> ok x -> below_min cmp lk r x = true <-> ~ after_start le lk (vmin r) x.
Proof.
  intros A X. unfold below_min, after_start. destruct lk.
  - rewrite lt_iff by auto. tauto.
  - rewrite le_iff, lt_of_iff by auto. pose proof (le_dec x (vmin r) X A). tauto.
Qed.
Lemma above_iff hk r x : ok (vmax r) -> ok x -> above_max cmp hk r x = true <-> ~ before_end le hk (vmax r) x.
Proof.
  intros A X. unfold above_max, before_end. destruct hk.
  - rewrite gt_iff by auto. tauto.
  - rewrite ge_iff, lt_of_iff by auto. pose proof (le_dec (vmax r) x A X). tauto.
Qed.
Lemma start_dec lk r x : ok (vmin r) -> ok x -> after_start le lk (vmin r) x \/ ~ after_start le lk (vmin r) x.
Proof.
  intros A X. unfold after_start. destruct lk; [apply le_dec; auto|].
  rewrite lt_of_iff by auto. destruct (le_dec x (vmin r) X A); tauto.
Qed.
Lemma end_dec hk r x : ok (vmax r) -> ok x -> before_end le hk (vmax r) x \/ ~ before_end le hk (vmax r) x.
Proof.
  intros A X. unfold before_end. destruct hk; [apply le_dec; auto|].
  rewrite lt_of_iff by auto. destruct (le_dec (vmax r) x A X); tauto.
Qed.
Lemma contains_iff lk hk r x : ok (vmin r) -> ok (vmax r) -> ok x ->
  contains cmp lk hk r x = true <-> in_interval le lk hk r x.
Proof.
  intros A B X. unfold contains, in_interval. rewrite negb_true_iff, orb_false_iff, <- !not_true, below_iff, above_iff by auto.
  destruct (start_dec lk r x A X), (end_dec hk r x B X); tauto.
Qed.
Lemma one_of lk hk r x : valid ok le r -> ok x ->
  (lk = closed /\ hk = closed \/ ~ le (vmax r) (vmin r)) ->
  one_of3 (below_min cmp lk r x = true) (contains cmp lk hk r x = true) (above_max cmp hk r x = true).
Proof.
  intros (A & B & L) X K. unfold one_of3, contains.
  assert (N : ~ (below_min cmp lk r x = true /\ above_max cmp hk r x = true)).
  { rewrite below_iff, above_iff by auto. unfold after_start, before_end. intros [P Q].
    assert (P' : match lk with closed => ~ le (vmin r) x | opened => le x (vmin r) end).
    { destruct lk; auto. rewrite lt_of_iff in P by auto. destruct (le_dec x (vmin r) X A); tauto. }
    assert (Q' : match hk with closed => ~ le x (vmax r) | opened => le (vmax r) x end).
    { destruct hk; auto. rewrite lt_of_iff in Q by auto. destruct (le_dec (vmax r) x B X); tauto. }
    assert (P2 : le x (vmin r)) by (destruct lk; auto; apply nle; auto).
    assert (Q2 : le (vmax r) x) by (destruct hk; auto; apply nle; auto).
    destruct K as [[-> ->]|K].
    - apply P'. apply trans with (vmax r); auto.
    - apply K. apply trans with x; auto. }
  destruct (below_min cmp lk r x), (above_max cmp hk r x); simpl in *; intuition congruence.
Qed.

(** C69 *)
Lemma max_ok x y : ok x -> ok y -> ok (std_max cmp x y).
Proof. unfold std_max. destruct (c_lt cmp x y); auto. Qed.
Lemma min_ok x y : ok x -> ok y -> ok (std_min cmp x y).
Proof. unfold std_min. destruct (c_lt cmp y x); auto. Qed.
Lemma max_le x y z : ok x -> ok y -> ok z -> le (std_max cmp x y) z <-> le x z /\ le y z.
Proof.
  intros X Y Z. unfold std_max. destruct (c_lt cmp x y) eqn:E.
  - apply lt_iff in E; auto. apply nle in E; auto. split; [|tauto]. intros H. split; auto. apply trans with y; auto.
  - apply nlt_iff in E; auto. split; [|tauto]. intros H. split; auto. apply trans with x; auto.
Qed.
Lemma le_min x y z : ok x -> ok y -> ok z -> le z (std_min cmp x y) <-> le z x /\ le z y.
Proof.
  intros X Y Z. unfold std_min. destruct (c_lt cmp y x) eqn:E.
  - apply lt_iff in E; auto. apply nle in E; auto. split; [|tauto]. intros H. split; auto. apply trans with y; auto.
  - apply nlt_iff in E; auto. split; [|tauto]. intros H. split; auto. apply trans with x; auto.
Qed.
(** Strictly above the larger of the two: strictly above both. *)
Lemma max_lt x y z : ok x -> ok y -> ok z -> lt_of le (std_max cmp x y) z <-> lt_of le x z /\ lt_of le y z.
Proof.
  intros X Y Z. rewrite !lt_of_iff by auto using max_ok. unfold std_max. destruct (c_lt cmp x y) eqn:E.
  - apply lt_iff in E; auto. apply nle in E; auto. split; [|tauto]. intros H. split; auto. intros G. apply H. apply trans with x; auto.
  - apply nlt_iff in E; auto. split; [|tauto]. intros H. split; auto. intros G. apply H. apply trans with y; auto.
Qed.
Lemma lt_min x y z : ok x -> ok y -> ok z -> lt_of le z (std_min cmp x y) <-> lt_of le z x /\ lt_of le z y.
Proof.
  intros X Y Z. rewrite !lt_of_iff by auto using min_ok. unfold std_min. destruct (c_lt cmp y x) eqn:E.
  - apply lt_iff in E; auto. apply nle in E; auto. split; [|tauto]. intros H. split; auto. intros G. apply H. apply trans with x; auto.
  - apply nlt_iff in E; auto. split; [|tauto]. intros H. split; auto. intros G. apply H. apply trans with y; auto.
Qed.

Lemma dassert_ok b p : p = true -> dassert b p = Ok tt.
Proof. intros ->. destruct b; reflexivity. Qed.
Definition apart r s : bool := c_gt cmp (vmin r) (vmax s) || c_lt cmp (vmax r) (vmin s).
Definition meet r s : vrange T := VR (std_max cmp (vmin r) (vmin s)) (std_min cmp (vmax r) (vmax s)).
Lemma apart_false r s : valid ok le r -> valid ok le s -> apart r s = false <-> le (vmin r) (vmax s) /\ le (vmin s) (vmax r).
Proof.
  intros (A & B & L) (A' & B' & L'). unfold apart. rewrite orb_false_iff, <- !not_true, gt_iff, lt_iff by auto.
  destruct (le_dec (vmin r) (vmax s)), (le_dec (vmin s) (vmax r)); tauto.
Qed.
Lemma meet_valid r s : valid ok le r -> valid ok le s -> apart r s = false -> valid ok le (meet r s).
Proof.
  intros V V' H. pose proof V as (A & B & L). pose proof V' as (A' & B' & L'). apply apart_false in H; auto. destruct H.
  split; [|split]; cbn [meet vmin vmax]; auto using max_ok, min_ok.
  rewrite le_min, !max_le by auto using max_ok. auto.
Qed.
Lemma overlap_eq b r s : valid ok le r -> valid ok le s ->
  overlap cmp b r s = Ok (if apart r s then None else Some (meet r s)).
Proof.
  intros V V'. pose proof V as (A & B & L). pose proof V' as (A' & B' & L'). unfold overlap.
  rewrite !dassert_ok by (apply le_iff; auto). cbn [obind]. fold (apart r s). destruct (apart r s) eqn:E; auto.
  pose proof (meet_valid r s V V' E) as (_ & _ & M). cbn [meet vmin vmax] in M.
  unfold vr_make. rewrite dassert_ok by (apply le_iff; auto using max_ok, min_ok). reflexivity.
Qed.
Lemma meet_members lk hk r s x : valid ok le r -> valid ok le s -> ok x ->
  in_interval le lk hk (meet r s) x <-> in_interval le lk hk r x /\ in_interval le lk hk s x.
Proof.
  intros (A & B & L) (A' & B' & L') X. unfold in_interval, after_start, before_end. cbn [meet vmin vmax].
  destruct lk, hk; rewrite ?max_le, ?le_min, ?max_lt, ?lt_min by auto; tauto.
Qed.
Lemma in_weak lk hk r x : valid ok le r -> ok x -> in_interval le lk hk r x -> le (vmin r) x /\ le x (vmax r).
Proof. unfold in_interval, after_start, before_end, lt_of. intros (A & B & L) X. destruct lk, hk; tauto. Qed.
Lemma apart_disjoint lk hk r s x : valid ok le r -> valid ok le s -> ok x -> apart r s = true ->
  ~ (in_interval le lk hk r x /\ in_interval le lk hk s x).
Proof.
  intros V V' X H [P Q]. apply in_weak in P; auto. apply in_weak in Q; auto.
  assert (apart r s = false); [|congruence].
  pose proof V as (A & B & L). pose proof V' as (A' & B' & L').
  apply apart_false; auto. split; apply trans with x; tauto.
Qed.
(** Whenever there is an overlap its members are the common members; without one there are none. *)
Lemma overlap_members b lk hk r s : valid ok le r -> valid ok le s ->
  exists o, overlap cmp b r s = Ok o /\
    match o with
    | Some q => valid ok le q /\ forall x, ok x -> in_interval le lk hk q x <-> in_interval le lk hk r x /\ in_interval le lk hk s x
    | None => forall x, ok x -> ~ (in_interval le lk hk r x /\ in_interval le lk hk s x)
    end.
Proof.
  intros V V'. eexists. split; [apply overlap_eq; auto|]. destruct (apart r s) eqn:E.
  - intros x X. apply apart_disjoint; auto.
  - split; [apply meet_valid; auto|]. intros x X. apply meet_members; auto.
Qed.
Lemma overlap_closed b r s : valid ok le r -> valid ok le s ->
  (overlap cmp b r s = Ok None <-> forall x, ok x -> ~ (in_interval le closed closed r x /\ in_interval le closed closed s x)).
Proof.
  intros V V'. rewrite overlap_eq by auto. destruct (apart r s) eqn:E.
  - split; auto. intros _ x X. apply apart_disjoint; auto.
  - split; [congruence|]. intros H. exfalso. pose proof (meet_valid r s V V' E) as (A & B & L).
    apply (H (vmin (meet r s))); auto. apply (meet_members closed closed); auto.
    split; cbn [after_start before_end]; auto. apply refl; auto.
Qed.

(** C70 *)
Lemma clamp_cases r x : valid ok le r -> ok x ->
  (~ le (vmin r) x /\ clamp cmp r x = Ok (vmin r)) \/ (~ le x (vmax r) /\ clamp cmp r x = Ok (vmax r)) \/
  (le (vmin r) x /\ le x (vmax r) /\ clamp cmp r x = Ok x).
Proof.
  intros (A & B & L) X. unfold clamp, std_clamp. rewrite (proj2 (nlt_iff _ _ B A) L).
  destruct (c_lt cmp x (vmin r)) eqn:E1; [left|].
  - split; auto. apply lt_iff in E1; auto.
  - apply nlt_iff in E1; auto. destruct (c_lt cmp (vmax r) x) eqn:E2; [right; left|right; right].
    + apply lt_iff in E2; auto.
    + apply nlt_iff in E2; auto.
Qed.
Lemma clamp_closed r x : valid ok le r -> ok x ->
  exists y, clamp cmp r x = Ok y /\ ok y /\ in_interval le closed closed r y /\
    (in_interval le closed closed r x -> y = x) /\
    (forall z, ok z -> in_interval le closed closed r z -> on_the_way le x y z) /\
    clamp cmp r y = Ok y.
Proof.
  intros V X. pose proof V as (A & B & L). unfold in_interval, after_start, before_end, on_the_way.
  destruct (clamp_cases r x V X) as [[P E]|[[P E]|[P [Q E]]]]; rewrite E; eexists; (split; [reflexivity|]).
  - split; auto. split; [split; auto using refl|]. split; [tauto|]. split.
    + intros z Z [G H]. left. split; auto. apply nle; auto.
    + destruct (clamp_cases r (vmin r) V A) as [[P' E']|[[P' E']|[P' [Q' E']]]]; auto. tauto.
  - split; auto. split; [split; auto using refl|]. split; [tauto|]. split.
    + intros z Z [G H]. right. split; auto. apply nle; auto.
    + destruct (clamp_cases r (vmax r) V B) as [[P' E']|[[P' E']|[P' [Q' E']]]]; auto. tauto.
  - split; auto. split; auto. split; auto. split; auto. intros z Z _.
    destruct (tot x z X Z); [left|right]; split; auto using refl.
Qed.
Lemma clamp_mono r x y u v : valid ok le r -> ok x -> ok y -> le x y -> clamp cmp r x = Ok u -> clamp cmp r y = Ok v -> le u v.
Proof.
  intros V X Y H E F. pose proof V as (A & B & L).
  destruct (clamp_cases r x V X) as [[P E']|[[P E']|[P [Q E']]]]; rewrite E in E'; injection E' as ->;
  destruct (clamp_cases r y V Y) as [[P' F']|[[P' F']|[P' [Q' F']]]]; rewrite F in F'; injection F' as ->; auto using refl.
  - exfalso. apply P. apply trans with (vmin r); auto. apply trans with y; auto. apply nle; auto.
  - exfalso. apply P. apply trans with y; auto.
  - exfalso. apply P'. apply trans with x; auto.
Qed.
End P.
