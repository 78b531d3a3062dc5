From Coq Require Import Permutation.
From Verif Require Import Base BaseFacts Range_Model Range_Spec Range_Proofs.

Section P.
Context {T : Type} (ok : T -> Prop) (cmp : T -> T -> option comparison) (le : T -> T -> Prop).
Hypothesis O : ordered ok cmp le.
Implicit Types x y z : T.
Implicit Types r s t : vrange T.
Let tot' := tot ok cmp le O.
Let trans' := trans ok cmp le O.
Let refl' := refl ok cmp le O.
Let nle' := nle ok cmp le O.

Lemma mxo x y : ok x -> ok y -> ok (std_max cmp x y).
Proof. exact (max_ok ok cmp x y). Qed.
Lemma mno x y : ok x -> ok y -> ok (std_min cmp x y).
Proof. exact (min_ok ok cmp x y). Qed.

(** * Overlap: algebraic laws *)
Lemma meet_comm r s : valid ok le r -> valid ok le s -> same_range le (meet cmp r s) (meet cmp s r).
Proof.
  intros (A & B & L) (A' & B' & L'). unfold same_range, meet. cbn [vmin vmax].
  rewrite !(max_le ok cmp le O), !(le_min ok cmp le O) by auto using mxo, mno.
  assert (M : forall x y, ok x -> ok y -> le x (std_max cmp x y) /\ le y (std_max cmp x y)).
  { intros x y X Y. rewrite <- (max_le ok cmp le O) by auto using mxo. apply refl'. apply mxo; auto. }
  assert (N : forall x y, ok x -> ok y -> le (std_min cmp x y) x /\ le (std_min cmp x y) y).
  { intros x y X Y. rewrite <- (le_min ok cmp le O) by auto using mno. apply refl'. apply mno; auto. }
  pose proof (M (vmin r) (vmin s) A A'). pose proof (M (vmin s) (vmin r) A' A).
  pose proof (N (vmax r) (vmax s) B B'). pose proof (N (vmax s) (vmax r) B' B). tauto.
Qed.
Lemma apart_comm r s : valid ok le r -> valid ok le s -> apart cmp r s = apart cmp s r.
Proof.
  intros V V'. pose proof (apart_false ok cmp le O r s V V'). pose proof (apart_false ok cmp le O s r V' V).
  destruct (apart cmp r s), (apart cmp s r); intuition congruence.
Qed.
Lemma overlap_comm b r s : valid ok le r -> valid ok le s -> same_opt le (overlap cmp b r s) (overlap cmp b s r).
Proof.
  intros V V'. rewrite !(overlap_eq ok cmp le O) by auto. rewrite (apart_comm r s) by auto.
  destruct (apart cmp s r); cbn [same_opt]; auto. apply meet_comm; auto.
Qed.
Lemma overlap_idem b r : valid ok le r -> overlap cmp b r r = Ok (Some r).
Proof.
  intros V. pose proof V as (A & B & L). rewrite (overlap_eq ok cmp le O) by auto.
  rewrite (proj2 (apart_false ok cmp le O r r V V)) by auto. unfold meet, std_max, std_min.
  destruct (c_lt cmp (vmin r) (vmin r)), (c_lt cmp (vmax r) (vmax r)), r; reflexivity.
Qed.
Lemma overlap_assoc b r s t : valid ok le r -> valid ok le s -> valid ok le t ->
  same_opt le (overlap_left (overlap cmp b) r s t) (overlap_right (overlap cmp b) r s t).
Proof.
  intros V V' V''. pose proof V as (A & B & L). pose proof V' as (A' & B' & L'). pose proof V'' as (A'' & B'' & L'').
  unfold overlap_left, overlap_right. rewrite !(overlap_eq ok cmp le O) by auto. cbn [obind].
  pose proof (apart_false ok cmp le O r s V V') as F1. pose proof (apart_false ok cmp le O s t V' V'') as F2.
  destruct (apart cmp r s) eqn:E1, (apart cmp s t) eqn:E2; cbn [same_opt]; auto.
  - pose proof (meet_valid ok cmp le O s t V' V'' E2) as W.
    rewrite (overlap_eq ok cmp le O) by auto.
    pose proof (apart_false ok cmp le O r (meet cmp s t) V W) as F3. cbn [meet vmin vmax] in F3.
    rewrite (le_min ok cmp le O), (max_le ok cmp le O) in F3 by auto.
    destruct (apart cmp r (meet cmp s t)); [exact I|]. exfalso. destruct F3 as [F3 _]. specialize (F3 eq_refl). intuition congruence.
  - pose proof (meet_valid ok cmp le O r s V V' E1) as W.
    rewrite (overlap_eq ok cmp le O) by auto.
    pose proof (apart_false ok cmp le O (meet cmp r s) t W V'') as F3. cbn [meet vmin vmax] in F3.
    rewrite (le_min ok cmp le O), (max_le ok cmp le O) in F3 by auto.
    destruct (apart cmp (meet cmp r s) t); [exact I|]. exfalso. destruct F3 as [F3 _]. specialize (F3 eq_refl). intuition congruence.
  - pose proof (meet_valid ok cmp le O s t V' V'' E2) as W.
    pose proof (meet_valid ok cmp le O r s V V' E1) as W'.
    rewrite !(overlap_eq ok cmp le O) by auto.
    pose proof (apart_false ok cmp le O r (meet cmp s t) V W) as F3. cbn [meet vmin vmax] in F3.
    rewrite (le_min ok cmp le O), (max_le ok cmp le O) in F3 by auto.
    pose proof (apart_false ok cmp le O (meet cmp r s) t W' V'') as F4. cbn [meet vmin vmax] in F4.
    rewrite (le_min ok cmp le O), (max_le ok cmp le O) in F4 by auto.
    assert (Q : apart cmp r (meet cmp s t) = apart cmp (meet cmp r s) t).
    { destruct (apart cmp r (meet cmp s t)), (apart cmp (meet cmp r s) t); intuition congruence. }
    rewrite Q. destruct (apart cmp (meet cmp r s) t) eqn:E3; [exact I|]. cbn [same_opt].
    unfold same_range, meet. cbn [vmin vmax].
    assert (M : forall x y z, ok x -> ok y -> ok z -> forall w, ok w -> le (std_max cmp (std_max cmp x y) z) w <-> le (std_max cmp x (std_max cmp y z)) w).
    { intros x y z X Y Z w Ow. rewrite !(max_le ok cmp le O) by auto using mxo. tauto. }
    assert (N : forall x y z, ok x -> ok y -> ok z -> forall w, ok w -> le w (std_min cmp (std_min cmp x y) z) <-> le w (std_min cmp x (std_min cmp y z))).
    { intros x y z X Y Z w Ow. rewrite !(le_min ok cmp le O) by auto using mno. tauto. }
    repeat split.
    + apply M; auto 6 using mxo.
    + apply M; auto 6 using mxo.
    + apply N; auto 6 using mno.
    + apply N; auto 6 using mno.
Qed.
Lemma same_opt_eq o p : antisym ok le -> same_opt le o p ->
  (forall q, o = Ok (Some q) -> valid ok le q) -> (forall q, p = Ok (Some q) -> valid ok le q) -> o = p.
Proof.
  intros A S V W. unfold same_opt in S. destruct o as [[r|]| | | |], p as [[s|]| | | |]; try contradiction; auto.
  destruct (V r eq_refl) as (a & c & _). destruct (W s eq_refl) as (a' & c' & _). destruct S as (S1 & S2 & S3 & S4).
  destruct r as [r1 r2], s as [s1 s2]. cbn [vmin vmax] in *. rewrite (A r1 s1), (A r2 s2); auto.
Qed.

(** * min and max of several values *)
Lemma std_min_first x y : ok x -> ok y -> (std_min cmp x y = y /\ lt_of le y x) \/ (std_min cmp x y = x /\ le x y).
Proof.
  intros X Y. unfold std_min. destruct (c_lt cmp y x) eqn:E; [left|right]; split; auto.
  - apply (lt_of_iff ok cmp le O); auto. apply (lt_iff ok cmp le O); auto.
  - apply (nlt_iff ok cmp le O) in E; auto.
Qed.
Lemma std_max_first x y : ok x -> ok y -> (std_max cmp x y = y /\ lt_of le x y) \/ (std_max cmp x y = x /\ le y x).
Proof.
  intros X Y. unfold std_max. destruct (c_lt cmp x y) eqn:E; [left|right]; split; auto.
  - apply (lt_of_iff ok cmp le O); auto. apply (lt_iff ok cmp le O); auto.
  - apply (nlt_iff ok cmp le O) in E; auto.
Qed.
Lemma v_min_cons x y ys : v_min cmp x (y :: ys) = std_min cmp x (v_min cmp y ys).
Proof. destruct ys; reflexivity. Qed.
Lemma v_max_cons x y ys : v_max cmp x (y :: ys) = std_max cmp x (v_max cmp y ys).
Proof. destruct ys; reflexivity. Qed.
Lemma v_min_first xs : forall x, ok x -> Forall ok xs -> first_least le (v_min cmp x xs) (x :: xs).
Proof.
  induction xs as [|y ys IH]; intros x X H.
  - exists [], []. split; [reflexivity|]. split; intros z [].
  - inversion H as [|? ? Y YS]; subst. destruct (IH y Y YS) as (l1 & l2 & E & P & Q).
    rewrite v_min_cons.
    assert (M : ok (v_min cmp y ys)).
    { assert (In (v_min cmp y ys) (y :: ys)) by (rewrite E; apply in_elt). rewrite Forall_forall in H. auto. }
    assert (OK : forall z, In z (y :: ys) -> ok z) by (rewrite Forall_forall in H; auto).
    destruct (std_min_first x (v_min cmp y ys) X M) as [[-> K]|[-> K]].
    + exists (x :: l1), l2. rewrite E. split; [reflexivity|]. split; auto. intros z [<-|Z]; auto.
    + exists [], (y :: ys). split; [reflexivity|]. split; [intros z []|]. intros z Z.
      apply trans' with (v_min cmp y ys); auto.
      rewrite E in Z. apply in_app_or in Z. destruct Z as [Z|[<-|Z]]; auto. apply P; auto.
Qed.
Lemma v_max_first xs : forall x, ok x -> Forall ok xs -> first_greatest le (v_max cmp x xs) (x :: xs).
Proof.
  induction xs as [|y ys IH]; intros x X H.
  - exists [], []. split; [reflexivity|]. split; intros z [].
  - inversion H as [|? ? Y YS]; subst. destruct (IH y Y YS) as (l1 & l2 & E & P & Q).
    rewrite v_max_cons.
    assert (M : ok (v_max cmp y ys)).
    { assert (In (v_max cmp y ys) (y :: ys)) by (rewrite E; apply in_elt). rewrite Forall_forall in H. auto. }
    assert (OK : forall z, In z (y :: ys) -> ok z) by (rewrite Forall_forall in H; auto).
    destruct (std_max_first x (v_max cmp y ys) X M) as [[-> K]|[-> K]].
    + exists (x :: l1), l2. rewrite E. split; [reflexivity|]. split; auto. intros z [<-|Z]; auto.
    + exists [], (y :: ys). split; [reflexivity|]. split; [intros z []|]. intros z Z.
      apply trans' with (v_max cmp y ys); auto.
      rewrite E in Z. apply in_app_or in Z. destruct Z as [Z|[<-|Z]]; auto. apply P; auto.
Qed.
Lemma first_least_least m l : ok m -> first_least le m l -> least le m l.
Proof.
  intros M (l1 & l2 & -> & P & Q). split; [apply in_elt|]. intros x Hx. apply in_app_or in Hx.
  destruct Hx as [Hx|[<-|Hx]]; auto. apply P; auto.
Qed.
Lemma first_greatest_greatest m l : ok m -> first_greatest le m l -> greatest le m l.
Proof.
  intros M (l1 & l2 & -> & P & Q). split; [apply in_elt|]. intros x Hx. apply in_app_or in Hx.
  destruct Hx as [Hx|[<-|Hx]]; auto. apply P; auto.
Qed.
Lemma v_min_least x xs : ok x -> Forall ok xs -> least le (v_min cmp x xs) (x :: xs) /\ ok (v_min cmp x xs).
Proof.
  intros X H. pose proof (v_min_first xs x X H) as F.
  assert (K : ok (v_min cmp x xs)).
  { destruct F as (l1 & l2 & E & _). assert (I : In (v_min cmp x xs) (x :: xs)) by (rewrite E; apply in_elt).
    assert (G : Forall ok (x :: xs)) by auto. rewrite Forall_forall in G. auto. }
  split; auto. apply first_least_least; auto.
Qed.
Lemma v_max_greatest x xs : ok x -> Forall ok xs -> greatest le (v_max cmp x xs) (x :: xs) /\ ok (v_max cmp x xs).
Proof.
  intros X H. pose proof (v_max_first xs x X H) as F.
  assert (K : ok (v_max cmp x xs)).
  { destruct F as (l1 & l2 & E & _). assert (I : In (v_max cmp x xs) (x :: xs)) by (rewrite E; apply in_elt).
    assert (G : Forall ok (x :: xs)) by auto. rewrite Forall_forall in G. auto. }
  split; auto. apply first_greatest_greatest; auto.
Qed.
Lemma min_max_perm x xs y ys : ok x -> Forall ok xs -> Permutation (x :: xs) (y :: ys) ->
  (le (v_min cmp x xs) (v_min cmp y ys) /\ le (v_min cmp y ys) (v_min cmp x xs)) /\
  (le (v_max cmp x xs) (v_max cmp y ys) /\ le (v_max cmp y ys) (v_max cmp x xs)).
Proof.
  intros X H P.
  assert (G : Forall ok (y :: ys)).
  { apply Forall_forall. intros z Z. assert (F : Forall ok (x :: xs)) by auto. rewrite Forall_forall in F. apply F.
    eapply Permutation_in; [symmetry; exact P|exact Z]. }
  inversion G as [|? ? Y YS]; subst.
  destruct (v_min_least x xs X H) as [[I1 L1] _]. destruct (v_min_least y ys Y YS) as [[I2 L2] _].
  destruct (v_max_greatest x xs X H) as [[I3 L3] _]. destruct (v_max_greatest y ys Y YS) as [[I4 L4] _].
  repeat split.
  - apply L1. eapply Permutation_in; [symmetry; exact P|exact I2].
  - apply L2. eapply Permutation_in; [exact P|exact I1].
  - apply L4. eapply Permutation_in; [exact P|exact I3].
  - apply L3. eapply Permutation_in; [symmetry; exact P|exact I4].
Qed.
Lemma minmax2_spec x y : ok x -> ok y -> least le (fst (minmax2 cmp x y)) [x; y] /\ greatest le (snd (minmax2 cmp x y)) [x; y].
Proof.
  intros X Y. unfold minmax2, least, greatest. destruct (c_le cmp x y) eqn:E; cbn [fst snd].
  - apply (le_iff ok cmp le O) in E; auto. split; (split; [simpl; auto|]); intros z [<-|[<-|[]]]; auto.
  - assert (L : le y x) by (apply nle'; auto; intros L; apply (le_iff ok cmp le O) in L; auto; congruence).
    split; (split; [simpl; auto|]); intros z [<-|[<-|[]]]; auto.
Qed.
Lemma r_minmax_spec l : Forall ok l -> forall mn mx seen, ok mn -> ok mx -> least le mn seen -> greatest le mx seen ->
  Forall ok seen ->
  least le (fst (r_minmax_from cmp mn mx l)) (seen ++ l) /\ greatest le (snd (r_minmax_from cmp mn mx l)) (seen ++ l).
Proof.
  induction l as [|x l IH]; intros Hl mn mx seen M X L G S.
  - rewrite app_nil_r. auto.
  - inversion Hl as [|? ? Xx Hl']; subst. cbn [r_minmax_from].
    replace (seen ++ x :: l) with ((seen ++ [x]) ++ l) by (rewrite <- app_assoc; reflexivity).
    rewrite Forall_forall in S.
    apply IH; auto.
    + destruct (c_lt cmp x mn); auto.
    + destruct (c_lt cmp x mx); auto.
    + destruct L as [L1 L2]. destruct (c_lt cmp x mn) eqn:E.
      * apply (lt_iff ok cmp le O) in E; auto. apply nle' in E; auto.
        split; [apply in_elt|]. intros z Z. apply in_app_or in Z. destruct Z as [Z|[<-|[]]]; auto. apply trans' with mn; auto.
      * apply (nlt_iff ok cmp le O) in E; auto. split; [apply in_or_app; auto|].
        intros z Z. apply in_app_or in Z. destruct Z as [Z|[<-|[]]]; auto.
    + destruct G as [G1 G2]. destruct (c_lt cmp x mx) eqn:E.
      * apply (lt_iff ok cmp le O) in E; auto. apply nle' in E; auto.
        split; [apply in_or_app; auto|]. intros z Z. apply in_app_or in Z. destruct Z as [Z|[<-|[]]]; auto.
      * apply (nlt_iff ok cmp le O) in E; auto. split; [apply in_elt|].
        intros z Z. apply in_app_or in Z. destruct Z as [Z|[<-|[]]]; auto. apply trans' with mx; auto.
    + apply Forall_app. split; auto. apply Forall_forall. auto.
Qed.

(** * envelope *)
Notation hull := (closed_hull ok le).
Lemma hull_of mn mx l : Forall ok l -> least le mn l -> greatest le mx l -> hull (VR mn mx) l.
Proof.
  intros F [I1 L1] [I2 L2]. rewrite Forall_forall in F.
  split; [|split].
  - split; [|split]; cbn [vmin vmax]; auto.
  - intros x X. split; cbn [after_start before_end vmin vmax]; auto.
  - intros q (A & B & _) H x X [P Q]. cbn [after_start before_end vmin vmax] in *.
    destruct (H mn I1) as [H1 _]. destruct (H mx I2) as [_ H2]. cbn [after_start before_end] in *.
    split; cbn [after_start before_end]; [apply trans' with mn|apply trans' with mx]; auto.
Qed.
Lemma make_ok b mn mx : ok mn -> ok mx -> le mn mx -> vr_make cmp b mn mx = Ok (VR mn mx).
Proof. intros. unfold vr_make. rewrite dassert_ok by (apply (le_iff ok cmp le O); auto). reflexivity. Qed.
Lemma envelope_hull b x xs : ok x -> Forall ok xs -> xs <> [] ->
  exists r, envelope cmp b x xs = Ok r /\ hull r (x :: xs).
Proof.
  intros X H NE. assert (F : Forall ok (x :: xs)) by auto.
  assert (G : exists mn mx, match xs with [y] => minmax2 cmp x y | _ => v_minmax cmp x xs end = (mn, mx) /\
              least le mn (x :: xs) /\ greatest le mx (x :: xs)).
  { destruct xs as [|y [|z zs]]; [congruence| |].
    - inversion H as [|? ? Y _]; subst. destruct (minmax2_spec x y X Y). destruct (minmax2 cmp x y) as [mn mx]. eauto.
    - exists (v_min cmp x (y :: z :: zs)), (v_max cmp x (y :: z :: zs)). split; [reflexivity|].
      split; [apply v_min_least; auto|apply v_max_greatest; auto]. }
  destruct G as (mn & mx & E & L & G). exists (VR mn mx). pose proof (hull_of mn mx _ F L G) as Hh.
  split; auto. unfold envelope. rewrite E. destruct Hh as [(A & B & C) _]. rewrite make_ok by auto. reflexivity.
Qed.
Lemma envelope_range_hull b l : Forall ok l ->
  match l with [] => envelope_range cmp b l = UB | _ => exists r, envelope_range cmp b l = Ok r /\ hull r l end.
Proof.
  intros F. destruct l as [|x l]; [reflexivity|]. inversion F as [|? ? X Hl]; subst.
  destruct (r_minmax_spec l Hl x x [x] X X) as [L G]; auto.
  - split; [simpl; auto|]. intros z [<-|[]]. auto.
  - split; [simpl; auto|]. intros z [<-|[]]. auto.
  - exists (VR (fst (r_minmax_from cmp x x l)) (snd (r_minmax_from cmp x x l))).
    pose proof (hull_of _ _ (x :: l) F L G) as Hh. split; auto.
    unfold envelope_range, r_minmax. cbn [obind]. destruct Hh as [(A & B & C) _]. rewrite make_ok by auto. reflexivity.
Qed.
Lemma vr_min_eq rs : forall r, vr_min cmp r rs = v_min cmp (vmin r) (map vmin rs).
Proof. induction rs as [|s rs IH]; intros r; [reflexivity|]. cbn [map vr_min]. rewrite v_min_cons, <- IH. destruct rs; reflexivity. Qed.
Lemma vr_max_eq rs : forall r, vr_max cmp r rs = v_max cmp (vmax r) (map vmax rs).
Proof. induction rs as [|s rs IH]; intros r; [reflexivity|]. cbn [map vr_max]. rewrite v_max_cons, <- IH. destruct rs; reflexivity. Qed.
Lemma envelope_ranges_hull b lk hk r rs : Forall (valid ok le) (r :: rs) ->
  exists e, envelope_ranges cmp b r rs = Ok e /\ valid ok le e /\
    least le (vmin e) (map vmin (r :: rs)) /\ greatest le (vmax e) (map vmax (r :: rs)) /\
    (forall s x, In s (r :: rs) -> ok x -> in_interval le lk hk s x -> in_interval le lk hk e x) /\
    (forall q, valid ok le q -> (forall s x, In s (r :: rs) -> ok x -> in_interval le closed closed s x -> in_interval le closed closed q x) ->
       forall x, ok x -> in_interval le closed closed e x -> in_interval le closed closed q x).
Proof.
  intros F. assert (F1 : Forall ok (map vmin (r :: rs))).
  { apply Forall_map. eapply Forall_impl; [|exact F]. intros s V. apply V. }
  assert (F2 : Forall ok (map vmax (r :: rs))).
  { apply Forall_map. eapply Forall_impl; [|exact F]. intros s V. apply V. }
  cbn [map] in *. inversion F1 as [|? ? A As]; subst. inversion F2 as [|? ? B Bs]; subst.
  destruct (v_min_least _ _ A As) as [L OL]. destruct (v_max_greatest _ _ B Bs) as [G OG].
  rewrite <- vr_min_eq in *. rewrite <- vr_max_eq in *.
  assert (C : le (vr_min cmp r rs) (vr_max cmp r rs)).
  { apply trans' with (vmin r); auto. { apply L. simpl. auto. } apply trans' with (vmax r); auto.
    - inversion F as [|? ? V ?]; subst. apply V.
    - apply G. simpl. auto. }
  exists (VR (vr_min cmp r rs) (vr_max cmp r rs)). unfold envelope_ranges. rewrite make_ok by auto.
  split; [reflexivity|]. cbn [vmin vmax]. split; [split; auto|]. split; auto. split; auto. split.
  - intros s x Is X. rewrite Forall_forall in F. destruct (F s Is) as (SA & SB & SL).
    assert (P : le (vr_min cmp r rs) (vmin s)). { apply L. change (vmin r :: map vmin rs) with (map vmin (r :: rs)). apply in_map. auto. }
    assert (Q : le (vmax s) (vr_max cmp r rs)). { apply G. change (vmax r :: map vmax rs) with (map vmax (r :: rs)). apply in_map. auto. }
    unfold in_interval, after_start, before_end. cbn [vmin vmax]. intros [U V]. split.
    + destruct lk; [apply trans' with (vmin s); auto|]. rewrite (lt_of_iff ok cmp le O) in * by auto.
      intros W. apply U. apply trans' with (vr_min cmp r rs); auto.
    + destruct hk; [apply trans' with (vmax s); auto|]. rewrite (lt_of_iff ok cmp le O) in * by auto.
      intros W. apply V. apply trans' with (vr_max cmp r rs); auto.
  - intros q (QA & QB & QL) H x X [U V]. cbn [after_start before_end vmin vmax] in *.
    destruct L as [L1 L2], G as [G1 G2].
    change (vmin r :: map vmin rs) with (map vmin (r :: rs)) in L1. change (vmax r :: map vmax rs) with (map vmax (r :: rs)) in G1.
    apply in_map_iff in L1. destruct L1 as (s & Es & Is). apply in_map_iff in G1. destruct G1 as (s' & Es' & Is').
    rewrite Forall_forall in F. destruct (F s Is) as (SA & SB & SL). destruct (F s' Is') as (SA' & SB' & SL').
    destruct (H s (vmin s) Is SA) as [H1 _]. { split; cbn [after_start before_end]; auto. }
    destruct (H s' (vmax s') Is' SB') as [_ H2]. { split; cbn [after_start before_end]; auto. }
    cbn [after_start before_end] in *. rewrite Es in H1. rewrite Es' in H2.
    split; cbn [after_start before_end]; [apply trans' with (vr_min cmp r rs)|apply trans' with (vr_max cmp r rs)]; auto.
Qed.
End P.
