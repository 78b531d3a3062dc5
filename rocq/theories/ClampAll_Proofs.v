(** Proofs about clamping into many ranges. *)
From Coq Require Import List Permutation ZArith Lia. Import ListNotations.
From Verif Require Import Base BaseFacts Range_Model Range_Spec Range_Proofs Merge_Spec Merge_Proofs ClampAll_Spec.

Section P.
Context {T : Type} (ok : T -> Prop) (cmp : T -> T -> option comparison) (le : T -> T -> Prop) (O : ordered ok cmp le).
Let tr := trans ok cmp le O.
Let rf := refl ok cmp le O.
Let tt_ := tot ok cmp le O.

Ltac sat := repeat match goal with
  | H1 : le ?a ?b, H2 : le ?b ?c |- _ => lazymatch goal with H : le a c |- _ => fail | _ => assert (le a c) by (apply (tr a b c); assumption) end
  end.
Ltac order := match goal with |- le ?a ?a => apply rf; assumption | _ => sat; assumption end.

(** [y] is [x] moved into the interval. *)
Definition moved (lo hi x y : T) : Prop :=
  (le x lo /\ le y lo /\ le lo y) \/ (le hi x /\ le y hi /\ le hi y) \/ (le lo x /\ le x hi /\ le x y /\ le y x).
Lemma clamp_moved r x : valid ok le r -> ok x -> exists y, clamp cmp r x = Ok y /\ ok y /\ moved (vmin r) (vmax r) x y.
Proof.
  intros (A & B & L) X. unfold clamp, std_clamp. rewrite (proj2 (nlt_iff ok cmp le O (vmax r) (vmin r) B A)) by exact L. eexists. split; [reflexivity|].
  unfold moved. destruct (c_lt cmp x (vmin r)) eqn:E1.
  - apply (lt_iff ok cmp le O) in E1; auto. apply (nle ok cmp le O) in E1; auto. split; auto.
  - apply (nlt_iff ok cmp le O) in E1; auto. destruct (c_lt cmp (vmax r) x) eqn:E2.
    + apply (lt_iff ok cmp le O) in E2; auto. apply (nle ok cmp le O) in E2; auto. split; auto 6.
    + apply (nlt_iff ok cmp le O) in E2; auto. split; auto. right. right. auto.
Qed.
Lemma moved_unique lo hi x y z : ok lo -> ok hi -> ok x -> ok y -> ok z -> le lo hi -> moved lo hi x y -> moved lo hi x z -> le y z /\ le z y.
Proof.
  intros A B X Y Z L H1 H2. unfold moved in *. destruct H1 as [H1|[H1|H1]], H2 as [H2|[H2|H2]]; repeat match goal with H : _ /\ _ |- _ => destruct H end; split; order.
Qed.
Lemma moved_in lo hi x y : ok lo -> ok hi -> ok x -> ok y -> le lo hi -> moved lo hi x y -> le lo y /\ le y hi.
Proof. intros A B X Y L H. unfold moved in H. destruct H as [H|[H|H]]; repeat match goal with H : _ /\ _ |- _ => destruct H end; split; order. Qed.
(** One interval after the other is one interval. *)
Lemma moved_two lo hi lo' hi' mlo mhi x y z : ok lo -> ok hi -> ok lo' -> ok hi' -> ok mlo -> ok mhi -> ok x -> ok y -> ok z ->
  le lo hi -> le lo' hi' -> moved lo hi x y -> moved lo' hi' y z -> moved lo' hi' lo mlo -> moved lo' hi' hi mhi ->
  le mlo mhi /\ moved mlo mhi x z.
Proof.
  intros A B A' B' M1 M2 X Y Z L L' H1 H2 H3 H4. unfold moved in *.
  assert (LM : le mlo mhi) by (destruct H3 as [H3|[H3|H3]], H4 as [H4|[H4|H4]]; repeat match goal with H : _ /\ _ |- _ => destruct H end; order).
  split; [exact LM|].
  destruct (tt_ x mlo X M1) as [C|C]; [|destruct (tt_ x mhi X M2) as [D|D]].
  - left. split; [exact C|].
    destruct H1 as [H1|[H1|H1]], H2 as [H2|[H2|H2]], H3 as [H3|[H3|H3]], H4 as [H4|[H4|H4]]; repeat match goal with H : _ /\ _ |- _ => destruct H end; split; order.
  - right. right. split; [exact C|]. split; [exact D|].
    destruct H1 as [H1|[H1|H1]], H2 as [H2|[H2|H2]], H3 as [H3|[H3|H3]], H4 as [H4|[H4|H4]]; repeat match goal with H : _ /\ _ |- _ => destruct H end; split; order.
  - right. left. split; [exact D|].
    destruct H1 as [H1|[H1|H1]], H2 as [H2|[H2|H2]], H3 as [H3|[H3|H3]], H4 as [H4|[H4|H4]]; repeat match goal with H : _ /\ _ |- _ => destruct H end; split; order.
Qed.

Definition inside (s : vrange T) (y : T) : Prop := le (vmin s) y /\ le y (vmax s).
Lemma clamp_all_ok : forall rs x, Forall (valid ok le) rs -> ok x -> exists y, clamp_all cmp rs x = Ok y /\ ok y.
Proof.
  induction rs as [|r rs IH]; intros x F X; [exists x; auto|]. cbn [clamp_all].
  destruct (clamp_moved r x (Forall_inv F) X) as (y & -> & Y & _). apply IH; [exact (Forall_inv_tail F)|exact Y].
Qed.
Lemma clamp_all_app rs ss x : clamp_all cmp (rs ++ ss) x = let! y := clamp_all cmp rs x in clamp_all cmp ss y.
Proof. revert x. induction rs as [|r rs IH]; intros x; [reflexivity|]. cbn [app clamp_all]. destruct (clamp cmp r x); cbn [obind]; auto. Qed.

(** ** Any ranges *)
Lemma clamp_all_moved : forall rs r, Forall (valid ok le) (r :: rs) ->
  exists lo hi, clamp_all cmp rs (vmin r) = Ok lo /\ clamp_all cmp rs (vmax r) = Ok hi /\ valid ok le (VR lo hi) /\
    forall x, ok x -> exists y, clamp_all cmp (r :: rs) x = Ok y /\ ok y /\ moved lo hi x y.
Proof.
  induction rs as [|s rs IH]; intros r F.
  - exists (vmin r), (vmax r). destruct (Forall_inv F) as (A & B & L). split; [reflexivity|]. split; [reflexivity|]. split; [repeat split; assumption|].
    intros x X. destruct (clamp_moved r x (conj A (conj B L)) X) as (y & E & Y & M). exists y. cbn [clamp_all]. rewrite E. auto.
  - destruct (IH s (Forall_inv_tail F)) as (lo & hi & _ & _ & (VA & VB & VL) & H). cbn [vmin vmax] in *. destruct (Forall_inv F) as (A & B & L).
    destruct (H (vmin r) A) as (mlo & E1 & M1 & H1). destruct (H (vmax r) B) as (mhi & E2 & M2 & H2). exists mlo, mhi.
    split; [exact E1|]. split; [exact E2|].
    assert (K : forall x, ok x -> le mlo mhi /\ exists y, clamp_all cmp (r :: s :: rs) x = Ok y /\ ok y /\ moved mlo mhi x y).
    { intros x X. destruct (clamp_moved r x (conj A (conj B L)) X) as (y & E & Y & M). destruct (H y Y) as (z & E' & Z & M').
      destruct (moved_two (vmin r) (vmax r) lo hi mlo mhi x y z) as [K1 K2]; try assumption. split; [exact K1|]. exists z.
      change (clamp_all cmp (r :: s :: rs) x) with (let! y := clamp cmp r x in clamp_all cmp (s :: rs) y). rewrite E. auto. }
    split; [split; [exact M1|]; split; [exact M2|]; exact (proj1 (K _ A))|]. intros x X. exact (proj2 (K x X)).
Qed.
Lemma one_range r rs : Forall (valid ok le) (r :: rs) ->
  exists lo hi, clamp_all cmp rs (vmin r) = Ok lo /\ clamp_all cmp rs (vmax r) = Ok hi /\ valid ok le (VR lo hi) /\
    forall x, ok x -> same_value le (clamp_all cmp (r :: rs) x) (clamp cmp (VR lo hi) x).
Proof.
  intros F. destruct (clamp_all_moved rs r F) as (lo & hi & E1 & E2 & V & H). exists lo, hi. split; [exact E1|]. split; [exact E2|]. split; [exact V|].
  intros x X. destruct (H x X) as (y & E & Y & M). destruct (clamp_moved (VR lo hi) x V X) as (z & E' & Z & M'). destruct V as (A & B & L). cbn [vmin vmax] in *.
  exists y, z. split; [exact E|]. split; [exact E'|]. now apply (moved_unique lo hi x).
Qed.
Lemma twice rs x : Forall (valid ok le) rs -> ok x -> same_value le (clamp_all cmp rs x) (let! y := clamp_all cmp rs x in clamp_all cmp rs y).
Proof.
  intros F X. destruct rs as [|r rs]; [exists x, x; repeat split; auto|]. destruct (clamp_all_moved rs r F) as (lo & hi & _ & _ & (A & B & L) & H). cbn [vmin vmax] in *.
  destruct (H x X) as (y & E & Y & M). destruct (H y Y) as (z & E' & Z & M'). exists y, z. rewrite E. split; [reflexivity|]. split; [exact E'|].
  destruct (moved_in lo hi x y) as [P Q]; try assumption. apply (moved_unique lo hi y); try assumption. right. right. repeat split; auto.
Qed.
Lemma moved_mono lo hi x y u w : ok lo -> ok hi -> ok x -> ok y -> ok u -> ok w -> le lo hi -> le x y -> moved lo hi x u -> moved lo hi y w -> le u w.
Proof.
  intros A B X Y U W L XY H1 H2. unfold moved in *. destruct H1 as [H1|[H1|H1]], H2 as [H2|[H2|H2]]; repeat match goal with H : _ /\ _ |- _ => destruct H end; order.
Qed.
Lemma monotone rs x y : Forall (valid ok le) rs -> ok x -> ok y -> le x y ->
  exists u w, clamp_all cmp rs x = Ok u /\ clamp_all cmp rs y = Ok w /\ le u w.
Proof.
  intros F X Y XY. destruct rs as [|r rs]; [exists x, y; auto|]. destruct (clamp_all_moved rs r F) as (lo & hi & _ & _ & (A & B & L) & H). cbn [vmin vmax] in *.
  destruct (H x X) as (u & E & U & M). destruct (H y Y) as (w & E' & W & M'). exists u, w. split; [exact E|]. split; [exact E'|]. now apply (moved_mono lo hi x y).
Qed.
Lemma in_last rs r x : Forall (valid ok le) (rs ++ [r]) -> ok x -> exists y, clamp_all cmp (rs ++ [r]) x = Ok y /\ ok y /\ in_interval le closed closed r y.
Proof.
  intros F X. apply Forall_app in F. destruct F as [F F']. destruct (clamp_all_ok rs x F X) as (u & E & U). pose proof (Forall_inv F') as V.
  destruct (clamp_moved r u V U) as (y & E' & Y & M). exists y. rewrite clamp_all_app, E. cbn [obind clamp_all]. rewrite E'. split; [reflexivity|]. split; [exact Y|].
  destruct V as (A & B & L). now apply (moved_in (vmin r) (vmax r) u).
Qed.

(** ** Ranges with a common value *)
Lemma stays s t v x y : valid ok le s -> valid ok le t -> ok v -> ok x -> ok y -> inside s v -> inside t v -> inside s x -> moved (vmin t) (vmax t) x y -> inside s y.
Proof.
  intros (A & B & L) (A' & B' & L') V X Y H1 H2 H3 H. unfold moved, inside in *.
  destruct H as [H|[H|H]]; repeat match goal with H : _ /\ _ |- _ => destruct H end; split; order.
Qed.
Lemma way_step t x y u z : valid ok le t -> ok x -> ok y -> ok u -> ok z -> inside t z -> moved (vmin t) (vmax t) x y -> on_the_way le y u z -> inside t u -> on_the_way le x u z.
Proof.
  intros (A & B & L) X Y U Z I H W IU. unfold on_the_way, moved, inside in *.
  destruct H as [H|[H|H]], W as [W|W]; repeat match goal with H : _ /\ _ |- _ => destruct H end; solve [left; split; order|right; split; order].
Qed.
Lemma kept : forall rs x y s v, valid ok le s -> Forall (valid ok le) rs -> ok x -> ok v -> inside s v -> Forall (fun t => inside t v) rs -> inside s x ->
  clamp_all cmp rs x = Ok y -> inside s y.
Proof.
  induction rs as [|r rs IH]; intros x y s v VS F X V I FI IX E; cbn [clamp_all] in E; [injection E as <-; exact IX|].
  destruct (clamp_moved r x (Forall_inv F) X) as (z & EZ & Z & M). rewrite EZ in E. cbn [obind] in E.
  apply (IH z y s v); try assumption; [exact (Forall_inv_tail F)|exact (Forall_inv_tail FI)|].
  apply (stays s r v x z); try assumption; [exact (Forall_inv F)|exact (Forall_inv FI)].
Qed.
Lemma nearest_gen : forall rs x v, Forall (valid ok le) rs -> ok x -> ok v -> Forall (fun t => inside t v) rs ->
  exists y, clamp_all cmp rs x = Ok y /\ ok y /\ Forall (fun t => inside t y) rs /\ forall z, ok z -> Forall (fun t => inside t z) rs -> on_the_way le x y z.
Proof.
  induction rs as [|r rs IH]; intros x v F X V I.
  - exists x. split; [reflexivity|]. split; [exact X|]. split; [constructor|]. intros z Z _. unfold on_the_way. destruct (tt_ x z X Z); auto.
  - pose proof (Forall_inv F) as VR_. pose proof VR_ as (A & B & L). destruct (clamp_moved r x VR_ X) as (y & E & Y & M). cbn [clamp_all]. rewrite E. cbn [obind].
    destruct (IH y v (Forall_inv_tail F) Y V (Forall_inv_tail I)) as (u & E' & U & FU & W). exists u. split; [exact E'|]. split; [exact U|].
    assert (IU : inside r u).
    { apply (kept rs y u r v); try assumption; [exact (Forall_inv_tail F)|exact (Forall_inv I)|exact (Forall_inv_tail I)|]. now apply (moved_in (vmin r) (vmax r) x). }
    split; [now constructor|]. intros z Z FZ. apply (way_step r x y u z); try assumption; [exact (Forall_inv FZ)|]. apply W; [exact Z|exact (Forall_inv_tail FZ)].
Qed.
Lemma ways_same x y z : ok x -> ok y -> ok z -> on_the_way le x y z -> on_the_way le x z y -> le y z /\ le z y.
Proof.
  intros X Y Z H1 H2. unfold on_the_way in *. destruct H1 as [H1|H1], H2 as [H2|H2]; destruct H1, H2; split; order.
Qed.
Lemma in_all_inside rs v : in_all le rs v <-> Forall (fun t => inside t v) rs.
Proof. rewrite Forall_forall. reflexivity. Qed.
Lemma nearest rs x v : Forall (valid ok le) rs -> ok x -> ok v -> in_all le rs v ->
  exists y, clamp_all cmp rs x = Ok y /\ ok y /\ in_all le rs y /\ forall z, ok z -> in_all le rs z -> on_the_way le x y z.
Proof.
  intros F X V I. apply in_all_inside in I. destruct (nearest_gen rs x v F X V I) as (y & E & Y & I' & W). exists y.
  split; [exact E|]. split; [exact Y|]. split; [now apply in_all_inside|]. intros z Z IZ. apply W; [exact Z|]. now apply in_all_inside.
Qed.
Lemma any_order rs ss x v : Forall (valid ok le) rs -> Permutation rs ss -> ok x -> ok v -> in_all le rs v ->
  same_value le (clamp_all cmp rs x) (clamp_all cmp ss x).
Proof.
  intros F P X V I. assert (PI : forall u, in_all le rs u <-> in_all le ss u).
  { intros u. split; intros H s S; apply H; [exact (Permutation_in s (Permutation_sym P) S)|exact (Permutation_in s P S)]. }
  destruct (nearest rs x v F X V I) as (y & E & Y & IY & W).
  destruct (nearest ss x v) as (z & E' & Z & IZ & W'); [eapply Permutation_Forall; eassumption|exact X|exact V|now apply PI|].
  exists y, z. split; [exact E|]. split; [exact E'|]. apply (ways_same x); try assumption; [apply W|apply W']; try assumption; now apply PI.
Qed.
Lemma into_common b r rs q x : Forall (valid ok le) (r :: rs) -> ok x -> common cmp b r rs = Ok (Some q) ->
  same_value le (clamp_all cmp (r :: rs) x) (clamp cmp q x).
Proof.
  intros F X C. destruct (common_ok ok cmp le O b closed closed r rs F) as (o & E & H). rewrite C in E. injection E as <-.
  destruct H as (V & _ & _ & M). pose proof V as (A & B & L).
  assert (IQ : in_all le (r :: rs) (vmin q)). { refine (proj1 (M (vmin q) A) _). split; [now apply rf|exact L]. }
  destruct (nearest (r :: rs) x (vmin q) F X A IQ) as (y & EY & Y & IY & W).
  destruct (nearest [q] x (vmin q)) as (z & EZ & Z & IZ & W'); [constructor; [exact V|constructor]|exact X|exact A| |].
  { intros s [<-|[]]. split; [now apply rf|exact L]. }
  cbn [clamp_all] in EZ. exists y, z. split; [exact EY|]. split; [destruct (clamp cmp q x); try discriminate EZ; exact EZ|].
  apply (ways_same x); try assumption.
  - apply W; [exact Z|]. exact (proj1 (M z Z) (IZ q (or_introl eq_refl))).
  - apply W'; [exact Y|]. intros s [<-|[]]. exact (proj2 (M _ Y) IY).
Qed.
End P.

Lemma order_refuted : exists rs ss : list (vrange Z), exists x y, Forall (valid anything Z.le) rs /\ Permutation rs ss /\
  clamp_all zcmp rs 7%Z = Ok x /\ clamp_all zcmp ss 7%Z = Ok y /\ x <> y.
Proof.
  exists [VR 0 1; VR 2 3]%Z, [VR 2 3; VR 0 1]%Z, 2%Z, 1%Z.
  split; [repeat constructor; cbn; lia|]. split; [apply perm_swap|]. repeat split; discriminate.
Qed.
