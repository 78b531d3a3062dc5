(** Proofs about core/result.hpp. *)
From Verif Require Import Base Result_Model Core_Spec.

Section RP.
Context {V E : Type}.
Variables (moved_v : V -> V) (moved_e : E -> E) (torn_v : V -> V -> V) (torn_e : E -> E -> E).
Variables (nothrow_v nothrow_e : bool).
Notation one := (V + E)%type.
Notation step := (r_step moved_v moved_e torn_v torn_e nothrow_v nothrow_e).
Notation run := (r_run moved_v moved_e torn_v torn_e nothrow_v nothrow_e).
Notation sstep := (rspec_step moved_v moved_e torn_v torn_e nothrow_v nothrow_e).
Notation srun := (rspec_run moved_v moved_e torn_v torn_e nothrow_v nothrow_e).
Definition REL (p : N -> var V E) (q : N -> one) : Prop := forall i, p i = as_var (q i).

Lemma REL_upd : forall p q i x, REL p q -> REL (pupd p i (as_var x)) (sset q i x).
Proof. intros p q i x H k. unfold pupd, sset. destruct (k =? i); auto. Qed.
Lemma REL_upd_same : forall p q i, REL p q -> REL (pupd p i (p i)) q.
Proof. intros p q i H k. unfold pupd. destruct (N.eqb_spec k i); subst; auto. Qed.

Lemma step_refines : forall o p q x q', REL p q -> sstep o q = Some (x, q') -> exists p', step o p = (x, p') /\ REL p' q'.
Proof.
  intros o p q x q' H Eq.
  destruct o; cbn [rspec_step] in Eq; cbn [r_step].
  - injection Eq as <- <-. eexists; split; [reflexivity|]. apply (REL_upd p q i (inl v) H).
  - injection Eq as <- <-. eexists; split; [reflexivity|]. apply (REL_upd p q i (inr e) H).
  - destruct throws; injection Eq as <- <-; cbn; eexists; (split; [reflexivity|]); [exact H|apply (REL_upd p q i (inl v) H)].
  - pose proof (H i) as Hi. pose proof (H j) as Hj.
    destruct throws; destruct (q i) as [u|u] eqn:Qi; destruct (q j) as [w|w] eqn:Qj; cbn [as_var] in Hi, Hj;
    unfold r_copy_assign; rewrite ?Hi, ?Hj.
    + injection Eq as <- <-. eexists; split; [reflexivity|]. apply (REL_upd p q i (inl (torn_v u w)) H).
    + destruct nothrow_e; [|discriminate]. injection Eq as <- <-. eexists; split; [reflexivity|].
      rewrite <- Hi. apply REL_upd_same; exact H.
    + destruct nothrow_v; [|discriminate]. injection Eq as <- <-. eexists; split; [reflexivity|].
      rewrite <- Hi. apply REL_upd_same; exact H.
    + injection Eq as <- <-. eexists; split; [reflexivity|]. apply (REL_upd p q i (inr (torn_e u w)) H).
    + injection Eq as <- <-. eexists; split; [reflexivity|]. apply (REL_upd p q i (inl w) H).
    + injection Eq as <- <-. eexists; split; [reflexivity|]. apply (REL_upd p q i (inr w) H).
    + injection Eq as <- <-. eexists; split; [reflexivity|]. apply (REL_upd p q i (inl w) H).
    + injection Eq as <- <-. eexists; split; [reflexivity|]. apply (REL_upd p q i (inr w) H).
  - destruct (N.eqb_spec i j) as [->|Hij]; injection Eq as <- <-.
    { eexists; split; [reflexivity|]. unfold r_self_move. rewrite (H j). destruct (q j) as [w|w]; cbn [as_var moved_from].
      - apply (REL_upd _ _ j (inl (moved_v w)) H).
      - apply (REL_upd _ _ j (inr (moved_e w)) H). }
    unfold r_move_assign. eexists; split; [reflexivity|].
    rewrite (H j). destruct (q j) as [w|w] eqn:Qj; cbn [as_var moved_from].
    + apply (REL_upd _ _ i (inl w)). apply (REL_upd _ _ j (inl (moved_v w)) H).
    + apply (REL_upd _ _ i (inr w)). apply (REL_upd _ _ j (inr (moved_e w)) H).
  - injection Eq as <- <-. cbn. eexists; split; [reflexivity|]. rewrite (H j), (H i). apply REL_upd, REL_upd, H.
  - pose proof (H i) as Hi. destruct (q i) as [w|w] eqn:Qi; cbn [as_var] in Hi; rewrite Hi; injection Eq as <- <-; cbn [r_value noexcept];
      eexists; (split; [reflexivity|]); [apply (REL_upd p q i (inl v) H)|exact H].
  - pose proof (H i) as Hi. unfold r_transform, r_and_then. rewrite Hi.
    destruct (q i) as [w|w] eqn:Qi; cbn [as_var] in *; cbn [r_ok r_value noexcept].
    + unfold pure, sapply in *. destruct (f w) as [[v'|e'|]|ex| | |] eqn:F; try discriminate; injection Eq as <- <-; eexists; (split; [reflexivity|]); cbn [r_move_assign fst].
      * apply (REL_upd p q i (inl v') H).
      * apply (REL_upd p q i (inr e') H).
      * rewrite <- Hi; apply REL_upd_same, H.
      * rewrite <- Hi; apply REL_upd_same, H.
      * rewrite <- Hi; apply REL_upd_same, H.
      * rewrite <- Hi; apply REL_upd_same, H.
    + destruct throws; injection Eq as <- <-; eexists; (split; [reflexivity|]); cbn [r_move_assign fst]; rewrite <- Hi; apply REL_upd_same, H.
  - pose proof (H i) as Hi. unfold r_transform_error, r_or_else. rewrite Hi.
    destruct (q i) as [w|w] eqn:Qi; cbn [as_var] in *; cbn [r_ok r_error noexcept].
    + destruct throws; injection Eq as <- <-; eexists; (split; [reflexivity|]); cbn [r_move_assign fst]; rewrite <- Hi; apply REL_upd_same, H.
    + unfold pure, sapply in *. destruct (f w) as [[v'|e'|]|ex| | |] eqn:F; try discriminate; injection Eq as <- <-; eexists; (split; [reflexivity|]); cbn [r_move_assign fst].
      * apply (REL_upd p q i (inl v') H).
      * apply (REL_upd p q i (inr e') H).
      * rewrite <- Hi; apply REL_upd_same, H.
      * rewrite <- Hi; apply REL_upd_same, H.
      * rewrite <- Hi; apply REL_upd_same, H.
      * rewrite <- Hi; apply REL_upd_same, H.
  - injection Eq as <- <-. rewrite (H i). destruct (q i); cbn; eauto.
  - injection Eq as <- <-. rewrite (H i). destruct (q i); cbn; eauto.
  - injection Eq as <- <-. rewrite (H i). destruct (q i); cbn; eauto.
  - injection Eq as <- <-. rewrite (H i). destruct (q i); cbn; eauto.
  - injection Eq as <- <-. rewrite (H i). destruct (q i); cbn; eauto.
Qed.

Lemma survived_goes_on (x : robs V E) : survived x = goes_on x.
Proof. destruct x as [[]| |[]|[]]; reflexivity. Qed.

Lemma run_refines : forall ops p q xs q', REL p q -> srun ops q = Some (xs, q') -> exists p', run ops p = (xs, p') /\ REL p' q'.
Proof.
  induction ops as [|o ops IH]; intros p q xs q' H Eq; cbn [rspec_run r_run] in *.
  - injection Eq as <- <-. eauto.
  - destruct (sstep o q) as [[x q1]|] eqn:E1; [|discriminate].
    destruct (step_refines _ _ _ _ _ H E1) as (p1 & -> & H1). rewrite survived_goes_on in Eq. destruct (goes_on x).
    + destruct (srun ops q1) as [[ys q2]|] eqn:E2; [|discriminate]. injection Eq as <- <-.
      destruct (IH _ _ _ _ H1 E2) as (p2 & -> & H2). eauto.
    + injection Eq as <- <-. eauto.
Qed.
Lemma result_refines : forall v0 ops xs q, srun ops (fun _ => inl v0) = Some (xs, q) ->
  exists p, run ops (r_start v0) = (xs, p) /\ forall i, p i = as_var (q i).
Proof. intros v0 ops xs q H. apply (run_refines ops (r_start v0) (fun _ => inl v0)); auto. intros i; reflexivity. Qed.
End RP.

Lemma result_always : forall (V E : Type) moved_v moved_e torn_v torn_e (v0 : V) (ops : list (rop V E)),
  Forall regular ops -> exists xs q, rspec_run moved_v moved_e torn_v torn_e true true ops (fun _ => inl v0) = Some (xs, q).
Proof.
  intros V E mv me tv te v0 ops HF. generalize (fun _ : N => @inl V E v0) as q0.
  induction HF as [|o ops Ho HF IH]; intros q0; cbn [rspec_run]; [eauto|].
  assert (exists x q1, rspec_step mv me tv te true true o q0 = Some (x, q1)) as (x & q1 & ->).
  { destruct o; cbn [rspec_step regular] in *; unfold sapply; repeat match goal with
    | |- context[match ?c with _ => _ end] => destruct c eqn:?
    end; subst; eauto; try (exfalso; rewrite ?N.eqb_eq in *; congruence);
    try (exfalso; match goal with H : never_valueless ?f, E : ?f ?a = Ok Valueless |- _ => exact (H a E) end). }
  destruct (survived x); eauto. destruct (IH q1) as (xs & q2 & ->). eauto.
Qed.

(** The combinators *)
Section Laws.
Context {V E S : Type}.
Variables (moved_v : V -> V) (moved_e : E -> E).
Implicit Types (f g : @fn V E S V) (h k : @fn V E S E).
Lemma left_identity : forall v f c s, r_and_then (r_of_value v) f c s = f v s.
Proof. reflexivity. Qed.
Lemma right_identity : forall (r : var V E) (s : S), r_and_then r (fun v s => (Ok (r_of_value v), s)) false s = (Ok r, s).
Proof. intros [v|e|] s; reflexivity. Qed.
Lemma associativity : forall (r : var V E) f g (s : S),
  match r_and_then r f false s with (Ok t, s') => r_and_then t g false s' | x => x end = r_and_then r (kleisli f g) false s.
Proof.
  intros [v|e|] f g s; cbn; try reflexivity. unfold kleisli. destruct (f v s) as [[[w|w|]|x| | |] s']; reflexivity.
Qed.
Lemma error_propagates : forall e f (s : S), r_and_then (r_of_error e) f false s = (Ok (r_of_error e), s) /\
  forall r0 : var V E, r0 = r_of_error e -> r_transform moved_v moved_e r0 f false s = (Ok tt, r0, s).
Proof. intros e f s. split; [reflexivity|]. intros r0 ->. reflexivity. Qed.
Lemma value_propagates : forall v h (s : S), r_or_else (r_of_value v) h false s = (Ok (r_of_value v), s) /\
  forall r0 : var V E, r0 = r_of_value v -> r_transform_error moved_v moved_e r0 h false s = (Ok tt, r0, s).
Proof. intros v h s. split; [reflexivity|]. intros r0 ->. reflexivity. Qed.
Lemma left_identity_e : forall e h c s, r_or_else (r_of_error e) h c s = h e s.
Proof. reflexivity. Qed.
Lemma right_identity_e : forall (r : var V E) (s : S), r <> Valueless ->
  r_or_else r (fun e s => (Ok (r_of_error e), s)) false s = (Ok r, s).
Proof. intros [v|e|] s H; try reflexivity. congruence. Qed.
Lemma associativity_e : forall (r : var V E) h k (s : S), (forall e s s', h e s <> (Ok Valueless, s')) ->
  match r_or_else r h false s with (Ok t, s') => r_or_else t k false s' | x => x end = r_or_else r (kleisli_e h k) false s.
Proof.
  intros [v|e|] h k s Hh; cbn; try reflexivity. unfold kleisli_e. destruct (h e s) as [[[w|w|]|x| | |] s'] eqn:Eq; try reflexivity.
  destruct (Hh _ _ _ Eq).
Qed.
(** A valueless result is passed on by and_then; or_else asks it for its error. *)
Lemma valueless_laws : forall f h c (s : S),
  r_and_then Valueless f c s = (if c then Throw user_exn else Ok Valueless, s) /\ r_or_else Valueless h c s = (Terminate, s) /\
  snd (fst (r_transform moved_v moved_e Valueless f c s)) = Valueless /\
  fst (fst (r_transform_error moved_v moved_e Valueless h c s)) = Terminate.
Proof. intros f h [|] s; repeat split. Qed.
(** transform stores what and_then returns; if that throws the result is unchanged. *)
Lemma transform_spec : forall (r : var V E) f c (s : S),
  r_transform moved_v moved_e r f c s = match r_and_then r f c s with
                        | (Ok t, s') => (Ok tt, t, s')
                        | (o, s') => (omap (fun _ => tt) o, r, s')
                        end.
Proof. intros. unfold r_transform. destruct (r_and_then r f c s) as [[]]; reflexivity. Qed.
Lemma transform_error_spec : forall (r : var V E) h c (s : S),
  r_transform_error moved_v moved_e r h c s = match r_or_else r h c s with
                        | (Ok t, s') => (Ok tt, t, s')
                        | (o, s') => (omap (fun _ => tt) o, r, s')
                        end.
Proof. intros. unfold r_transform_error. destruct (r_or_else r h c s) as [[]]; reflexivity. Qed.
Lemma functor_id : forall (r : var V E) (s : S), r_transform moved_v moved_e r (lift_v (fun v => v)) false s = (Ok tt, r, s).
Proof. intros [v|e|] s; reflexivity. Qed.
Lemma functor_compose : forall (r : var V E) (a b : V -> V) (s : S),
  (let '(x, r1, s1) := r_transform moved_v moved_e r (lift_v a) false s in r_transform moved_v moved_e r1 (lift_v b) false s1) =
  r_transform moved_v moved_e r (lift_v (fun v => b (a v))) false s.
Proof. intros [v|e|] a b s; reflexivity. Qed.
Lemma functor_id_e : forall (r : var V E) (s : S), r <> Valueless -> r_transform_error moved_v moved_e r (lift_e (fun e => e)) false s = (Ok tt, r, s).
Proof. intros [v|e|] s H; try reflexivity. congruence. Qed.
Lemma functor_compose_e : forall (r : var V E) (a b : E -> E) (s : S),
  (let '(x, r1, s1) := r_transform_error moved_v moved_e r (lift_e a) false s in r_transform_error moved_v moved_e r1 (lift_e b) false s1) =
  r_transform_error moved_v moved_e r (lift_e (fun e => b (a e))) false s.
Proof. intros [v|e|] a b s; reflexivity. Qed.
End Laws.
