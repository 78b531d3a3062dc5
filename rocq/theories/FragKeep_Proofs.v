(** Proofs about kept iterators of fragment strings. *)
From Coq Require Import List. Import ListNotations.
From Verif Require Import Base BaseFacts String_Model Frag_Model Frag_Spec Frag_Proofs FragKeep_Model FragKeep_Spec.
Local Open Scope N_scope.

Definition fault {A} (b : build) : outcome A :=
  match b with Release => UB | DebugAbort => Terminate | DebugThrow => Throw logic_error end.
Definition endless {A} (b : build) : outcome A :=
  match b with Release => Diverge | DebugAbort => Terminate | DebugThrow => Throw logic_error end.

(** * Leaving the string *)
Lemma spot_inc_end b fs it : spot fs (lenN (text fs)) it -> it_inc b fs it = fault b.
Proof.
  intros (A & B & C). pose proof (before_S fs (it_frag it) A) as Q.
  assert (X : Datatypes.S (it_frag it) = length fs /\ it_off it = flen fs (it_frag it)).
  { destruct C as [C|C]; [|exact C]. pose proof (before_le fs (Datatypes.S (it_frag it)) (length fs) ltac:(lia) ltac:(lia)) as Y.
    rewrite before_all in Y. lia. }
  destruct X as [X Y]. unfold it_inc. rewrite X, Nat.eqb_refl, Y, N.eqb_refl. cbn [andb negb].
  rewrite N.leb_refl. destruct b; reflexivity.
Qed.
Lemma spot_dec_begin b fs it : spot fs 0 it -> sane fs -> it_dec b fs it = fault b.
Proof.
  intros P S. rewrite (spot_unique fs 0 it (begin_of fs) P (spot_begin fs S)). unfold it_dec, begin_of. cbn [it_frag it_off Nat.eqb N.eqb andb negb].
  destruct b; reflexivity.
Qed.
Lemma spot_deref_end b fs it : spot fs (lenN (text fs)) it -> it_deref b fs it = fault b.
Proof.
  intros (A & B & C). pose proof (before_S fs (it_frag it) A) as Q.
  assert (Y : it_off it = flen fs (it_frag it)).
  { destruct C as [C|C]; [|apply C]. pose proof (before_le fs (Datatypes.S (it_frag it)) (length fs) ltac:(lia) ltac:(lia)) as Y.
    rewrite before_all in Y. lia. }
  unfold it_deref. rewrite Y, N.ltb_irrefl, andb_false_r.
  replace (nth_error (fchars fs (it_frag it)) (N.to_nat (flen fs (it_frag it)))) with (@None N); [destruct b; reflexivity|].
  symmetry. apply nth_error_None. unfold flen, lenN. lia.
Qed.
Lemma seek_backward_before b fs fuel : forall i it n, wspot fs i it -> i < n -> (it_frag it < fuel)%nat ->
  seek_backward fuel b fs it n = fault b.
Proof.
  induction fuel as [|fuel IH]; intros i it n (A & B & C) L F; [lia|]. cbn [seek_backward].
  rewrite (proj2 (N.eqb_neq n 0)) by lia. rewrite (proj2 (N.leb_gt _ _)) by lia.
  destruct (it_frag it) as [|k] eqn:K.
  - cbn [Nat.eqb negb]. destruct b; reflexivity.
  - cbn [Nat.eqb negb]. rewrite dassert_true. cbn [obind]. rewrite before_S in B by lia.
    apply (IH (before fs k + flen fs k)); [repeat split; cbn [it_frag it_off]; lia|lia|cbn [it_frag]; lia].
Qed.
Lemma seek_cases b fs i it z : sane fs -> fits fs -> spot fs i it -> (- 2 ^ 63 < z)%Z ->
  let q := (Z.of_N i + z)%Z in
  ((q < 0)%Z -> seek b fs it z = fault b) /\
  ((Z.of_N (lenN (text fs)) < q)%Z -> seek b fs it z = endless b) /\
  ((0 <= q <= Z.of_N (lenN (text fs)))%Z -> exists it', seek b fs it z = Ok it' /\ spot fs (Z.to_N q) it').
Proof.
  intros S Ft P L q. pose proof (spot_wspot _ _ _ P) as W. pose proof (wspot_le _ _ _ W) as Le. pose proof P as (A & _).
  split; [|split].
  - intros Q. unfold seek. rewrite (proj2 (Z.ltb_ge _ _)) by lia. rewrite (proj2 (Z.eqb_neq _ _)) by lia.
    apply (seek_backward_before b fs _ i); [exact W|lia|lia].
  - intros Q. unfold seek. rewrite (proj2 (Z.ltb_lt _ _)) by lia. destruct b; cbn [endless].
    + apply (seek_forward_past fs _ i); [exact W|lia].
    + rewrite (seek_forward_past_debug DebugAbort fs _ i) by (try discriminate; try assumption; lia). reflexivity.
    + rewrite (seek_forward_past_debug DebugThrow fs _ i) by (try discriminate; try assumption; lia). reflexivity.
  - intros Q. apply seek_ok; auto.
Qed.

Section Keep.
Variables (b : build) (texts : N -> list N).
Notation fo := (frags_of texts).
Notation ct := (content texts).

Lemma text_frags vs : text (fo vs) = ct vs.
Proof. unfold text, frags_of, content. rewrite map_map. f_equal. apply map_ext. intros [t|]; reflexivity. Qed.
Lemma removelast_map {A B} (f : A -> B) l : removelast (map f l) = map f (removelast l).
Proof. induction l as [|x [|y l] IH]; [reflexivity|reflexivity|]. cbn [map removelast] in *. now rewrite IH. Qed.
Lemma proper_sane vs : proper texts vs -> sane (fo vs) /\ fits (fo vs).
Proof.
  intros (A & B & C). split; [|unfold fits; rewrite text_frags; exact C]. split.
  - destruct vs; [congruence|discriminate].
  - unfold frags_of. rewrite removelast_map. apply Forall_map. eapply Forall_impl; [|exact B].
    intros v (t & -> & T). exact T.
Qed.

Definition tied (i : kiter) (p : place) : Prop :=
  proper texts (p_views p) /\ exists it, i = kept (p_str p) (p_views p) it /\ spot (fo (p_views p)) (p_pos p) it.
Definition REL (s : kstore) (w : world) : Prop :=
  (forall v, ks_str s v = w_str w v) /\
  (forall v vs, w_str w v = Some vs -> proper texts vs) /\
  (forall k p, w_it w k = Some p -> exists i, ks_it s k = Some i /\ tied i p).

Lemma same_text_refl x : same_text x x = true.
Proof. destruct x; [apply N.eqb_refl|reflexivity]. Qed.
Lemma length_fo vs : length (fo vs) = length vs.
Proof. apply map_length. Qed.
Lemma consistent_kept v vs it i : spot (fo vs) i it -> consistent vs (kept v vs it) = true.
Proof.
  intros (A & _). rewrite length_fo in A. unfold consistent, kept. cbn [k_frag k_text].
  now rewrite (proj2 (Nat.ltb_lt _ _) A), same_text_refl.
Qed.

Lemma usable_rel s w k p : REL s w -> usable w k = Some p ->
  ks_str s (p_str p) = Some (p_views p) /\ w_str w (p_str p) = Some (p_views p) /\ proper texts (p_views p) /\
  exists it, ks_it s k = Some (kept (p_str p) (p_views p) it) /\ spot (fo (p_views p)) (p_pos p) it.
Proof.
  intros (R1 & R2 & R3) H. unfold usable in H. specialize (R3 k).
  destruct (w_it w k) as [q|]; [|discriminate]. specialize (R3 q eq_refl) as (i & Ei & R3). destruct (w_str w (p_str q)) as [vs|] eqn:E; [|discriminate].
  destruct (views_eq_dec vs (p_views q)) as [->|]; [|discriminate]. injection H as ->.
  destruct R3 as (P & it & -> & T).
  split; [now rewrite R1|]. split; [exact E|]. split; [exact P|]. eauto.
Qed.

Lemma REL_it s w l i p : REL s w -> tied i p ->
  REL (mk_kstore (ks_str s) (put (ks_it s) l (Some i))) (mk_world (w_str w) (assign (w_it w) l (Some p))).
Proof.
  intros (R1 & R2 & R3) T. split; [exact R1|]. split; [exact R2|]. intros k. cbn [ks_it w_it]. unfold put, assign.
  intros q. destruct (k =? l); [|apply R3]. intros [= <-]. eauto.
Qed.
Lemma REL_str s w v o : REL s w -> (forall vs, o = Some vs -> proper texts vs) ->
  REL (mk_kstore (put (ks_str s) v o) (ks_it s)) (mk_world (assign (w_str w) v o) (w_it w)).
Proof.
  intros (R1 & R2 & R3) T. split; [|split; [|exact R3]]; intros u; cbn [ks_str w_str]; unfold put, assign; destruct (u =? v); auto.
  intros vs. apply R2.
Qed.

(** A result without a state, beside the model's. *)
Definition agrees (m : outcome (kobs * kstore)) (s : kstore) (x : outcome kobs) (w1 : world) : Prop :=
  match x with
  | Ok y => exists s1, m = Ok (y, s1) /\ REL s1 w1
  | Throw e => m = Throw e
  | UB => m = UB
  | Terminate => m = Terminate
  | Diverge => m = Diverge
  end.

Lemma move_rel s w k l p f z :
  REL s w -> usable w k = Some p ->
  (forall it, spot (fo (p_views p)) (p_pos p) it -> exists it', f (fo (p_views p)) it = Ok it' /\ spot (fo (p_views p)) z it') ->
  exists s1, move_to texts s k l f = Ok (KDone, s1) /\
    REL s1 (mk_world (w_str w) (assign (w_it w) l (Some (mk_place (p_str p) (p_views p) z)))).
Proof.
  intros R H F. destruct (usable_rel s w k p R H) as (S1 & _ & P & it & I & T).
  unfold move_to. rewrite I. unfold kept at 1. cbn [k_owner]. rewrite S1. rewrite (consistent_kept _ _ _ _ T).
  unfold kept at 1 2. cbn [k_frag k_off]. destruct (F it T) as (it' & E & T'). destruct it as [kf ko]. cbn [it_frag it_off] in *.
  rewrite E. cbn [obind]. eexists. split; [reflexivity|]. apply REL_it; [exact R|].
  split; [exact P|]. cbn [p_views p_str p_pos k_owner kept]. eauto.
Qed.
Lemma move_fail s w k l p f (r : forall A, outcome A) :
  REL s w -> usable w k = Some p -> (forall it, spot (fo (p_views p)) (p_pos p) it -> f (fo (p_views p)) it = r iter) ->
  (forall A B (g : A -> outcome B), obind (r A) g = r B) ->
  move_to texts s k l f = r (kobs * kstore)%type.
Proof.
  intros R H F G. destruct (usable_rel s w k p R H) as (S1 & _ & P & it & I & T).
  unfold move_to. rewrite I. unfold kept at 1. cbn [k_owner]. rewrite S1. rewrite (consistent_kept _ _ _ _ T).
  unfold kept at 1 2. cbn [k_frag k_off]. specialize (F it T). destruct it as [kf ko]. cbn [it_frag it_off] in *.
  rewrite F. apply G.
Qed.
Lemma fault_bind A B (g : A -> outcome B) : obind (fault b) g = fault b.
Proof. destruct b; reflexivity. Qed.
Lemma endless_bind A B (g : A -> outcome B) : obind (endless b) g = endless b.
Proof. destruct b; reflexivity. Qed.
Lemma agrees_fault s w : agrees (fault b) s (failed b) w.
Proof. destruct b; reflexivity. Qed.
Lemma agrees_endless s w : agrees (endless b) s (lost b) w.
Proof. destruct b; reflexivity. Qed.

Lemma jump_rel s w k l f n x w1 : REL s w -> jump b texts w k l n = Some (x, w1) ->
  (forall vs i it, proper texts vs -> spot (fo vs) i it ->
     let q := (Z.of_N i + n)%Z in
     ((q < 0)%Z -> f (fo vs) it = fault b) /\
     ((Z.of_N (lenN (ct vs)) < q)%Z -> f (fo vs) it = endless b) /\
     ((0 <= q <= Z.of_N (lenN (ct vs)))%Z -> exists it', f (fo vs) it = Ok it' /\ spot (fo vs) (Z.to_N q) it')) ->
  agrees (move_to texts s k l f) s x w1.
Proof.
  intros R J F. unfold jump in J. destruct (usable w k) as [p|] eqn:U; [|discriminate].
  destruct (usable_rel s w k p R U) as (_ & _ & P & _).
  destruct (Z.ltb_spec (Z.of_N (p_pos p) + n) 0) as [C|C].
  - injection J as <- <-. rewrite (move_fail s w k l p f (fun A => fault b)); auto; [apply agrees_fault| |].
    + intros it T. now apply (F _ _ _ P T).
    + apply fault_bind.
  - destruct (Z.ltb_spec (Z.of_N (lenN (ct (p_views p)))) (Z.of_N (p_pos p) + n)) as [D|D].
    + injection J as <- <-. rewrite (move_fail s w k l p f (fun A => endless b)); auto; [apply agrees_endless| |].
      * intros it T. now apply (F _ _ _ P T).
      * apply endless_bind.
    + injection J as <- <-. cbn [agrees]. apply (move_rel s w k l p f); auto.
      intros it T. apply (F _ _ _ P T). lia.
Qed.

Lemma seek_rel n : (- 2 ^ 63 < n)%Z -> forall vs i it, proper texts vs -> spot (fo vs) i it ->
  let q := (Z.of_N i + n)%Z in
  ((q < 0)%Z -> seek b (fo vs) it n = fault b) /\
  ((Z.of_N (lenN (ct vs)) < q)%Z -> seek b (fo vs) it n = endless b) /\
  ((0 <= q <= Z.of_N (lenN (ct vs)))%Z -> exists it', seek b (fo vs) it n = Ok it' /\ spot (fo vs) (Z.to_N q) it').
Proof.
  intros L vs i it P T. destruct (proper_sane vs P) as [S Ft]. rewrite <- text_frags. apply seek_cases; auto.
Qed.
Lemma seek_minus_rel n : (- 2 ^ 63 < n < 2 ^ 63)%Z -> forall vs i it, proper texts vs -> spot (fo vs) i it ->
  let q := (Z.of_N i + - n)%Z in
  ((q < 0)%Z -> seek_minus b (fo vs) it n = fault b) /\
  ((Z.of_N (lenN (ct vs)) < q)%Z -> seek_minus b (fo vs) it n = endless b) /\
  ((0 <= q <= Z.of_N (lenN (ct vs)))%Z -> exists it', seek_minus b (fo vs) it n = Ok it' /\ spot (fo vs) (Z.to_N q) it').
Proof.
  intros L vs i it P T. unfold seek_minus. rewrite (proj2 (Z.eqb_neq _ _)) by lia. apply seek_rel; auto. lia.
Qed.
Lemma offset_ok_true n : offset_ok n = true -> (- 2 ^ 63 < n < 2 ^ 63)%Z.
Proof. unfold offset_ok. rewrite andb_true_iff, !Z.ltb_lt. tauto. Qed.

(** Two iterators that are usable. *)
Lemma two_rel s w k l p q f : REL s w -> usable w k = Some p -> usable w l = Some q ->
  exists a c, two s k l f = (let! x := f (p_views p) (kept (p_str p) (p_views p) a) (kept (p_str q) (p_views q) c) in Ok (x, s)) /\
    spot (fo (p_views p)) (p_pos p) a /\ spot (fo (p_views q)) (p_pos q) c /\
    (p_str p = p_str q -> p_views p = p_views q).
Proof.
  intros R P Q. destruct (usable_rel s w k p R P) as (S1 & W1 & _ & a & I & T). destruct (usable_rel s w l q R Q) as (S2 & W2 & _ & c & J & T').
  exists a, c. unfold two. rewrite I, J. unfold kept at 1 2. cbn [k_owner]. rewrite S1, S2. split; [reflexivity|]. split; [exact T|]. split; [exact T'|].
  intros E. rewrite E, W2 in W1. now injection W1.
Qed.
Lemma verify_same i j : k_owner i = k_owner j -> verify b i j = Ok tt.
Proof. intros E. unfold verify. rewrite E, N.eqb_refl. apply dassert_true. Qed.
Lemma verify_differ i j : k_owner i <> k_owner j -> verify b i j = match b with Release => Ok tt | _ => fault b end.
Proof. intros E. unfold verify. rewrite (proj2 (N.eqb_neq _ _) E). destruct b; reflexivity. Qed.

Lemma pair_rel s w k l one several f x w1 :
  REL s w -> pair_of w k l one several = Some (x, w1) ->
  (forall v vs a c i j, spot (fo vs) i a -> spot (fo vs) j c -> f vs (kept v vs a) (kept v vs c) = Ok (one i j)) ->
  (forall u v vs ws a c r, u <> v -> several = Some r -> f vs (kept u vs a) (kept v ws c) = r) ->
  agrees (two s k l f) s x w1.
Proof.
  intros R H F G. unfold pair_of in H. destruct (usable w k) as [p|] eqn:P; [|discriminate]. destruct (usable w l) as [q|] eqn:Q; [|discriminate].
  destruct (two_rel s w k l p q f R P Q) as (a & c & -> & T1 & T2 & E).
  destruct (N.eqb_spec (p_str p) (p_str q)) as [D|D].
  - injection H as <- <-. specialize (E D). rewrite <- E in *. rewrite <- D. erewrite F by eassumption. cbn. eauto.
  - destruct several as [r|]; [|discriminate]. injection H as <- <-.
    erewrite (G (p_str p) (p_str q)) by eauto. destruct r; cbn; eauto.
Qed.

Lemma step_rel o s w x w1 : REL s w -> proper_op texts o -> world_step b texts o w = Some (x, w1) -> agrees (kstep b texts o s) s x w1.
Proof.
  intros R O H. destruct o; cbn [world_step kstep proper_op] in *.
  - injection H as <- <-. cbn [agrees]. eexists. split; [reflexivity|]. apply REL_str; [exact R|]. intros ? [= <-]. exact O.
  - destruct (w_str w w0) as [vs|] eqn:E; [|discriminate]. injection H as <- <-. rewrite (proj1 R), E. cbn [agrees].
    eexists. split; [reflexivity|]. apply REL_str; [exact R|]. intros ? [= <-]. exact (proj1 (proj2 R) _ _ E).
  - injection H as <- <-. cbn [agrees]. eexists. split; [reflexivity|]. destruct R as (R1 & R2 & R3). split; [|split]; cbn [ks_str w_str ks_it w_it].
    + intros u. unfold put, assign. destruct (u =? v); auto.
    + intros u vs. unfold assign. destruct (u =? v); [discriminate|apply R2].
    + intros k p. specialize (R3 k). destruct (w_it w k) as [q|]; [|discriminate]. destruct (p_str q =? v); [discriminate|]. intros [= <-]. auto.
  - destruct (w_str w v) as [vs|] eqn:E; [|discriminate]. injection H as <- <-. rewrite (proj1 R), E. cbn [agrees].
    eexists. split; [reflexivity|]. apply REL_it; [exact R|]. pose proof (proj1 (proj2 R) _ _ E) as P. split; [exact P|].
    cbn [p_views p_str p_pos]. eexists. split; [reflexivity|]. apply spot_begin. now apply proper_sane.
  - destruct (w_str w v) as [vs|] eqn:E; [|discriminate]. injection H as <- <-. rewrite (proj1 R), E. cbn [agrees].
    eexists. split; [reflexivity|]. apply REL_it; [exact R|]. pose proof (proj1 (proj2 R) _ _ E) as P. split; [exact P|].
    cbn [p_views p_str p_pos]. eexists. split; [reflexivity|]. rewrite <- text_frags. apply spot_end. apply (proper_sane vs P).
  - pose proof (proj2 (proj2 R) k) as K. destruct (w_it w k) as [p|]; [|discriminate]. injection H as <- <-.
    destruct (K p eq_refl) as (i & -> & T). cbn [agrees]. eexists. split; [reflexivity|]. now apply REL_it.
  - destruct (usable w k) as [p|] eqn:U; [|discriminate]. destruct (usable_rel s w k p R U) as (_ & _ & P & _).
    destruct (proper_sane _ P) as [S Ft].
    destruct (N.ltb_spec (p_pos p) (lenN (ct (p_views p)))) as [C|C].
    + unfold jump in H. rewrite U in H. rewrite (proj2 (Z.ltb_ge _ _)) in H by lia. rewrite (proj2 (Z.ltb_ge _ _)) in H by lia.
      injection H as <- <-. cbn [agrees]. replace (Z.to_N (Z.of_N (p_pos p) + 1)) with (p_pos p + 1) by lia.
      apply (move_rel s w k k p); auto. intros it T. apply spot_inc; auto. now rewrite text_frags.
    + injection H as <- <-. rewrite (move_fail s w k k p _ (fun A => fault b)); auto; [apply agrees_fault| |apply fault_bind].
      intros it T. apply spot_inc_end. pose proof (wspot_le _ _ _ (spot_wspot _ _ _ T)) as Le. rewrite text_frags in *.
      replace (lenN (ct (p_views p))) with (p_pos p) by lia. exact T.
  - unfold jump in H. destruct (usable w k) as [p|] eqn:U; [|discriminate]. destruct (usable_rel s w k p R U) as (_ & _ & P & it0 & _ & T0).
    destruct (proper_sane _ P) as [S Ft]. pose proof (wspot_le _ _ _ (spot_wspot _ _ _ T0)) as Le. rewrite text_frags in Le.
    destruct (Z.ltb_spec (Z.of_N (p_pos p) + -1) 0) as [C|C].
    + injection H as <- <-. rewrite (move_fail s w k k p _ (fun A => fault b)); auto; [apply agrees_fault| |apply fault_bind].
      intros it T. apply spot_dec_begin; auto. replace 0 with (p_pos p) by lia. exact T.
    + rewrite (proj2 (Z.ltb_ge _ _)) in H by lia. injection H as <- <-. cbn [agrees].
      apply (move_rel s w k k p); auto. intros it T. apply spot_dec; auto.
      replace (Z.to_N (Z.of_N (p_pos p) + -1) + 1) with (p_pos p) by lia. exact T.
  - destruct (offset_ok n) eqn:On; [|discriminate]. apply offset_ok_true in On. cbn [negb] in H.
    apply (jump_rel s w k l _ n x w1 R H). apply seek_rel. lia.
  - destruct (offset_ok n) eqn:On; [|discriminate]. apply offset_ok_true in On. cbn [negb] in H.
    apply (jump_rel s w k l _ (- n) x w1 R H). apply seek_minus_rel. lia.
  - destruct (offset_ok n) eqn:On; [|discriminate]. apply offset_ok_true in On. cbn [negb] in H.
    apply (jump_rel s w k k _ n x w1 R H). apply seek_rel. lia.
  - destruct (offset_ok n) eqn:On; [|discriminate]. apply offset_ok_true in On. cbn [negb] in H.
    apply (jump_rel s w k k _ (- n) x w1 R H). apply seek_minus_rel. lia.
  - destruct (usable w k) as [p|] eqn:U; [|discriminate]. destruct (usable_rel s w k p R U) as (S1 & _ & P & it & I & T).
    injection H as <- <-.
    assert (D : k_read b texts s k = let! c := it_deref b (fo (p_views p)) it in Ok (KChar c, s)).
    { unfold k_read. rewrite I. pose proof (consistent_kept (p_str p) _ _ _ T) as C.
      destruct it as [kf ko]. cbn [kept k_owner k_text k_off k_frag it_frag it_off] in *. rewrite S1.
      destruct b; [|now rewrite C|now rewrite C].
      unfold it_deref. cbn [dassert obind it_frag it_off]. unfold fchars, view_at, frags_of.
      change (@None (list N)) with (option_map texts None) at 1. rewrite map_nth.
      now destruct (nth_error (chars (option_map texts (nth kf (p_views p) None))) (N.to_nat ko)). }
    rewrite D. rewrite <- text_frags. destruct (nth_error (text (fo (p_views p))) (N.to_nat (p_pos p))) as [c|] eqn:N.
    + rewrite (spot_deref b _ _ _ c T N). cbn. eauto.
    + rewrite spot_deref_end; [rewrite fault_bind; apply agrees_fault|].
      pose proof (wspot_le _ _ _ (spot_wspot _ _ _ T)) as Le. apply nth_error_None in N.
      replace (lenN (text (fo (p_views p)))) with (p_pos p) by (unfold lenN in *; lia). exact T.
  - apply (pair_rel s w k l _ _ _ x w1 R H).
    + intros v vs a c i j A C. unfold k_eq. rewrite verify_same by reflexivity. cbn [obind kept k_owner k_frag k_text k_off].
      rewrite N.eqb_refl. cbn [andb]. do 2 f_equal. rewrite <- (spot_eq _ _ _ _ _ A C). unfold it_eq.
      destruct (Nat.eqb_spec (it_frag a) (it_frag c)) as [E|E]; [|reflexivity]. now rewrite E, same_text_refl.
    + intros u v vs ws a c r D. intros [= <-]. unfold k_eq. rewrite verify_differ by exact D. cbn [kept k_owner].
      destruct b; [|reflexivity|reflexivity]. cbn [obind]. now rewrite (proj2 (N.eqb_neq _ _) D).
  - apply (pair_rel s w k l _ _ _ x w1 R H).
    + intros v vs a c i j A C. unfold k_cmp. rewrite verify_same by reflexivity. cbn [obind kept k_owner k_frag k_text k_off].
      rewrite N.eqb_refl. rewrite <- (spot_cmp _ _ _ _ _ A C). unfold it_cmp.
      destruct (Nat.compare_spec (it_frag a) (it_frag c)) as [E|E|E]; [|reflexivity|reflexivity]. now rewrite E, same_text_refl.
    + intros u v vs ws a c r D E. unfold k_cmp. rewrite verify_differ by exact D.
      destruct b; [discriminate|now injection E as <-|now injection E as <-].
  - apply (pair_rel s w k l _ _ _ x w1 R H).
    + intros v vs a c i j A C. unfold k_diff. rewrite verify_same by reflexivity. rewrite (consistent_kept v _ _ _ A), (consistent_kept v _ _ _ C).
      cbn [obind kept k_owner k_frag k_text k_off]. rewrite N.eqb_refl. cbn [andb].
      replace (if Nat.eqb (it_frag a) (it_frag c) then same_text (view_at vs (it_frag a)) (view_at vs (it_frag c)) else true) with true.
      * cbn [obind]. do 2 f_equal. destruct a as [a1 a2], c as [c1 c2]. cbn [it_frag it_off]. apply diff_ok; now apply spot_wspot.
      * destruct (Nat.eqb_spec (it_frag a) (it_frag c)) as [E|E]; [|reflexivity]. now rewrite E, same_text_refl.
    + intros u v vs ws a c r D E. unfold k_diff. rewrite verify_differ by exact D.
      destruct b; [discriminate|now injection E as <-|now injection E as <-].
Qed.

Lemma run_rel ops : forall s w xs w1, REL s w -> Forall (proper_op texts) ops -> world_run b texts ops w = Some (xs, w1) ->
  fst (krun b texts ops s) = xs.
Proof.
  induction ops as [|o ops IH]; intros s w xs w1 R F H; cbn [world_run krun] in *; [now injection H as <-|].
  inversion F as [|? ? F1 F2]; subst. destruct (world_step b texts o w) as [[x w']|] eqn:E; [|discriminate].
  pose proof (step_rel o s w x w' R F1 E) as A. destruct x as [y|e| | |]; cbn [agrees] in A;
    try (rewrite A; injection H as <- <-; reflexivity).
  destruct A as (s1 & -> & R1). destruct (world_run b texts ops w') as [[ys w2]|] eqn:E2; [|discriminate].
  injection H as <- <-. specialize (IH s1 w' ys w2 R1 F2 E2). destruct (krun b texts ops s1) as [zs s2]. cbn [fst] in *. now subst zs.
Qed.

Lemma kept_iterators ops xs w : Forall (proper_op texts) ops -> world_run b texts ops nowhere = Some (xs, w) ->
  fst (krun b texts ops kstart) = xs.
Proof. intros F H. apply (run_rel ops kstart nowhere xs w); auto. split; [reflexivity|]. split; [discriminate|]. discriminate. Qed.
End Keep.

(** * Reading without assertions *)
Lemma strings_then_read texts k i c mid : forall s, Forall about_strings mid -> ks_it s k = Some i ->
  nth_error (chars (option_map texts (k_text i))) (N.to_nat (k_off i)) = Some c ->
  fst (krun Release texts (mid ++ [KRead k]) s) = map (fun _ => Ok KDone) mid ++ [Ok (KChar c)].
Proof.
  induction mid as [|o mid IH]; intros s F I C.
  - cbn [app krun kstep map]. unfold k_read. now rewrite I, C.
  - inversion F as [|? ? F1 F2]; subst. destruct o; try contradiction F1; cbn [app krun kstep map].
    + specialize (IH (mk_kstore (put (ks_str s) v (Some vs)) (ks_it s)) F2 I C).
      destruct (krun Release texts (mid ++ [KRead k]) _) as [ys s1]. cbn [fst] in *. now subst ys.
    + specialize (IH (mk_kstore (put (ks_str s) v None) (ks_it s)) F2 I C).
      destruct (krun Release texts (mid ++ [KRead k]) _) as [ys s1]. cbn [fst] in *. now subst ys.
Qed.
Lemma stale_read texts v k vs n c mid : proper texts vs -> nth_error (content texts vs) (N.to_nat n) = Some c -> Forall about_strings mid ->
  fst (krun Release texts (KMake v vs :: KBegin k v :: KJump k (Z.of_N n) :: mid ++ [KRead k]) kstart) =
    Ok KDone :: Ok KDone :: Ok KDone :: map (fun _ => Ok KDone) mid ++ [Ok (KChar c)].
Proof.
  intros P Hc F. destruct (proper_sane texts vs P) as [S Ft]. pose proof (spot_begin _ S) as B.
  assert (L : n < lenN (content texts vs)).
  { pose proof (proj1 (nth_error_Some (content texts vs) (N.to_nat n)) ltac:(congruence)). unfold lenN. lia. }
  destruct (proj2 (proj2 (seek_rel Release texts (Z.of_N n) ltac:(lia) vs 0 _ P B)) ltac:(lia)) as (it & E & T).
  replace (Z.to_N (Z.of_N 0 + Z.of_N n)) with n in T by lia.
  pose proof (consistent_kept texts v vs _ _ B) as K.
  assert (D : nth_error (chars (option_map texts (view_at vs (it_frag it)))) (N.to_nat (it_off it)) = Some c).
  { rewrite <- text_frags in Hc. pose proof (spot_deref Release _ _ _ c T Hc) as Q. unfold it_deref in Q. cbn [dassert obind] in Q.
    unfold fchars, frags_of in Q. change (@None (list N)) with (option_map texts None) in Q. rewrite map_nth in Q. unfold view_at.
    destruct (nth_error (chars (option_map texts (nth (it_frag it) vs None))) (N.to_nat (it_off it))) as [x|]; [|discriminate].
    injection Q as Q. now rewrite Q. }
  cbn [krun kstep kstart ks_str ks_it]. unfold put at 1. rewrite N.eqb_refl.
  cbn [krun kstep ks_str ks_it]. unfold move_to. cbn [ks_it ks_str]. unfold put at 1. rewrite N.eqb_refl.
  change (k_owner (kept v vs (begin_of (frags_of texts vs)))) with v. unfold put at 1. rewrite N.eqb_refl, K.
  change (It (k_frag (kept v vs (begin_of (frags_of texts vs)))) (k_off (kept v vs (begin_of (frags_of texts vs))))) with (begin_of (frags_of texts vs)).
  rewrite E. cbn [obind].
  match goal with |- context [krun Release texts (mid ++ _) ?s] =>
    assert (X := strings_then_read texts k (kept v vs it) c mid s F); destruct (krun Release texts (mid ++ [KRead k]) s) as [ys s1] end.
  cbn [fst] in *. rewrite X; [reflexivity| |exact D]. cbn [ks_it]. unfold put. now rewrite N.eqb_refl.
Qed.

(** ** An iterator kept from before an assignment, compared with a new one *)
Lemma stale_begin b texts v k l t t' rest rest' : k <> l -> length rest = length rest' -> texts t <> [] -> texts t' <> [] ->
  fst (krun b texts [KMake v (Some t :: rest); KBegin k v; KMake v (Some t' :: rest'); KBegin l v; KEq k l] kstart) =
    [Ok KDone; Ok KDone; Ok KDone; Ok KDone; Ok (KBool (t =? t'))].
Proof.
  intros NE _ _ _. pose proof (proj2 (N.eqb_neq k l) NE) as E.
  destruct b; repeat (cbn -[N.eqb]; unfold put, two, k_eq, verify; rewrite ?N.eqb_refl, ?E); now rewrite andb_true_r.
Qed.
