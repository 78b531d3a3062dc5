(** Proofs about many ranges. *)
From Coq Require Import List Permutation. Import ListNotations.
From Verif Require Import Base BaseFacts Range_Model Range_Spec Range_Proofs MinMax_Proofs Merge_Spec.

Section P.
Context {T : Type} (ok : T -> Prop) (cmp : T -> T -> option comparison) (le : T -> T -> Prop) (O : ordered ok cmp le).
Let tr := trans ok cmp le O.
Let rf := refl ok cmp le O.
Let dec := le_dec ok cmp le O.
Lemma not_le x y : ok x -> ok y -> ~ le x y -> le y x.
Proof. exact (nle ok cmp le O x y). Qed.

(** ** What ranges have in common *)
Lemma max_one x y : std_max cmp x y = x \/ std_max cmp x y = y.
Proof. unfold std_max. destruct (c_lt cmp x y); auto. Qed.
Lemma min_one x y : std_min cmp x y = x \/ std_min cmp x y = y.
Proof. unfold std_min. destruct (c_lt cmp y x); auto. Qed.
Lemma max_ge x y : ok x -> ok y -> le x (std_max cmp x y) /\ le y (std_max cmp x y).
Proof. intros X Y. apply (max_le ok cmp le O); auto using (max_ok ok cmp). Qed.
Lemma min_le x y : ok x -> ok y -> le (std_min cmp x y) x /\ le (std_min cmp x y) y.
Proof. intros X Y. apply (le_min ok cmp le O); auto using (min_ok ok cmp). Qed.

(** [q] stands for the ranges [seen]. *)
Definition stands (q : vrange T) (seen : list (vrange T)) : Prop :=
  valid ok le q /\ greatest le (vmin q) (map vmin seen) /\ least le (vmax q) (map vmax seen).
Lemma stands_one r : valid ok le r -> stands r [r].
Proof.
  intros V. pose proof V as (A & B & _). split; [exact V|]. split; (split; [now left|]); intros x [<-|[]]; now apply rf.
Qed.
Lemma stands_more q seen r : Forall (valid ok le) seen -> stands q seen -> valid ok le r -> apart cmp q r = false ->
  stands (meet cmp q r) (seen ++ [r]).
Proof.
  intros F (V & (G1 & G2) & (L1 & L2)) VR_ A. pose proof V as (QA & QB & _). pose proof VR_ as (RA & RB & _).
  assert (FM : forall s, In s seen -> ok (vmin s) /\ ok (vmax s)).
  { intros s I. rewrite Forall_forall in F. destruct (F s I) as (X & Y & _). auto. }
  destruct (max_ge (vmin q) (vmin r)) as [M1 M2]; auto. destruct (min_le (vmax q) (vmax r)) as [N1 N2]; auto.
  assert (OM := max_ok ok cmp (vmin q) (vmin r) QA RA). assert (ON := min_ok ok cmp (vmax q) (vmax r) QB RB).
  split; [now apply (meet_valid ok cmp le O)|]. rewrite !map_app. cbn [map meet vmin vmax]. split; split.
  - destruct (max_one (vmin q) (vmin r)) as [->| ->]; apply in_or_app; [left; exact G1|right; now left].
  - intros x I. apply in_app_or in I. destruct I as [I|[<-|[]]]; [|exact M2].
    pose proof I as I'. apply in_map_iff in I'. destruct I' as (s & <- & S). destruct (FM s S). apply tr with (vmin q); auto.
  - destruct (min_one (vmax q) (vmax r)) as [->| ->]; apply in_or_app; [left; exact L1|right; now left].
  - intros x I. apply in_app_or in I. destruct I as [I|[<-|[]]]; [|exact N2].
    pose proof I as I'. apply in_map_iff in I'. destruct I' as (s & <- & S). destruct (FM s S). apply tr with (vmax q); auto.
Qed.
Lemma apart_true r s : valid ok le r -> valid ok le s -> apart cmp r s = true <-> ~ le (vmin r) (vmax s) \/ ~ le (vmin s) (vmax r).
Proof.
  intros V V'. pose proof (apart_false ok cmp le O r s V V') as H. pose proof V as (A & B & _). pose proof V' as (A' & B' & _).
  destruct (apart cmp r s); split; intros X; try congruence; try reflexivity.
  - destruct (dec (vmin r) (vmax s)); auto. destruct (dec (vmin s) (vmax r)); auto. destruct H as [_ H]. discriminate H. auto.
  - destruct (proj1 H eq_refl). tauto.
Qed.
Lemma common_stands b : forall rs q seen, Forall (valid ok le) seen -> stands q seen -> Forall (valid ok le) rs ->
  exists o, common cmp b q rs = Ok o /\
    match o with
    | Some q' => stands q' (seen ++ rs)
    | None => exists s t, In s (seen ++ rs) /\ In t (seen ++ rs) /\ overlap cmp b s t = Ok None
    end.
Proof.
  induction rs as [|r rs IH]; intros q seen FS ST F.
  - exists (Some q). split; [reflexivity|]. now rewrite app_nil_r.
  - cbn [common]. pose proof (Forall_inv F) as VR_. apply Forall_inv_tail in F. pose proof ST as (V & (G1 & G2) & (L1 & L2)).
    rewrite (overlap_eq ok cmp le O b q r V VR_). cbn [obind]. destruct (apart cmp q r) eqn:A.
    + exists None. split; [reflexivity|]. apply apart_true in A; auto. rewrite Forall_forall in FS. destruct A as [A|A].
      * apply in_map_iff in G1. destruct G1 as (s & E & I). exists s, r. split; [apply in_or_app; now left|]. split; [apply in_or_app; right; now left|].
        rewrite (overlap_eq ok cmp le O b s r) by auto. rewrite (proj2 (apart_true s r (FS s I) VR_)); [reflexivity|]. left. now rewrite E.
      * apply in_map_iff in L1. destruct L1 as (s & E & I). exists s, r. split; [apply in_or_app; now left|]. split; [apply in_or_app; right; now left|].
        rewrite (overlap_eq ok cmp le O b s r) by auto. rewrite (proj2 (apart_true s r (FS s I) VR_)); [reflexivity|]. right. now rewrite E.
    + destruct (IH (meet cmp q r) (seen ++ [r])) as (o & E & X).
      * apply Forall_app. split; [exact FS|]. now constructor.
      * now apply stands_more.
      * exact F.
      * exists o. split; [exact E|]. rewrite <- app_assoc in X. exact X.
Qed.
Lemma stands_members lk hk q rs : Forall (valid ok le) rs -> stands q rs ->
  forall x, ok x -> in_interval le lk hk q x <-> forall s, In s rs -> in_interval le lk hk s x.
Proof.
  intros F ((QA & QB & QL) & (G1 & G2) & (L1 & L2)) x X. rewrite Forall_forall in F. split.
  - intros [U W] s I. destruct (F s I) as (SA & SB & SL). pose proof (G2 _ (in_map vmin _ _ I)) as G. pose proof (L2 _ (in_map vmax _ _ I)) as L.
    split.
    + destruct lk; cbn [after_start] in *; [apply tr with (vmin q); auto|]. rewrite (lt_of_iff ok cmp le O) in * by auto.
      intros Y. apply U. apply tr with (vmin s); auto.
    + destruct hk; cbn [before_end] in *; [apply tr with (vmax q); auto|]. rewrite (lt_of_iff ok cmp le O) in * by auto.
      intros Y. apply W. apply tr with (vmax s); auto.
  - intros H. apply in_map_iff in G1. destruct G1 as (s & Es & Is). apply in_map_iff in L1. destruct L1 as (t & Et & It).
    split; [rewrite <- Es; apply (H s Is)|rewrite <- Et; apply (H t It)].
Qed.
Lemma common_ok b lk hk r rs : Forall (valid ok le) (r :: rs) ->
  exists o, common cmp b r rs = Ok o /\
    match o with
    | Some q => valid ok le q /\ greatest le (vmin q) (map vmin (r :: rs)) /\ least le (vmax q) (map vmax (r :: rs)) /\
                forall x, ok x -> in_interval le lk hk q x <-> forall s, In s (r :: rs) -> in_interval le lk hk s x
    | None => forall x, ok x -> ~ forall s, In s (r :: rs) -> in_interval le lk hk s x
    end.
Proof.
  intros F. pose proof (Forall_inv F) as V. pose proof (Forall_inv_tail F) as F'.
  destruct (common_stands b rs r [r]) as (o & E & X); [now constructor|now apply stands_one|exact F'|]. exists o. split; [exact E|].
  cbn [app] in X. destruct o as [q|].
  - pose proof X as (A & B & C). split; [exact A|]. split; [exact B|]. split; [exact C|]. now apply stands_members.
  - destruct X as (s & t & S & T' & N'). intros x XX H. rewrite Forall_forall in F.
    destruct (overlap_members ok cmp le O b lk hk s t (F s S) (F t T')) as (o & E' & Y). rewrite N' in E'. injection E' as <-.
    apply (Y x XX). auto.
Qed.
Lemma common_pairs b r rs : Forall (valid ok le) (r :: rs) ->
  common cmp b r rs = Ok None <-> exists s t, In s (r :: rs) /\ In t (r :: rs) /\ overlap cmp b s t = Ok None.
Proof.
  intros F. pose proof (Forall_inv F) as V. pose proof (Forall_inv_tail F) as F'.
  destruct (common_stands b rs r [r]) as (o & -> & X); [now constructor|now apply stands_one|exact F'|]. cbn [app] in X. destruct o as [q|].
  - split; [discriminate|]. intros (s & t & S & T' & N'). exfalso. destruct X as ((QA & QB & QL) & (_ & G) & (_ & L)). rewrite Forall_forall in F.
    destruct (F s S) as (SA & SB & SL) eqn:Es. destruct (F t T') as (TA & TB & TL) eqn:Et.
    rewrite (overlap_eq ok cmp le O b s t (F s S) (F t T')) in N'. destruct (apart cmp s t) eqn:A; [|discriminate].
    apply apart_true in A; auto.
    assert (H : forall u w, In u (r :: rs) -> In w (r :: rs) -> le (vmin u) (vmax w)).
    { intros u w U W. destruct (F u U) as (UA & UB & _). destruct (F w W) as (WA & WB & _).
      apply tr with (vmin q); auto; [apply G; now apply in_map|]. apply tr with (vmax q); auto. apply L. now apply in_map. }
    destruct A as [A|A]; apply A; apply H; auto.
  - split; [intros _; exact X|reflexivity].
Qed.
Lemma common_order b r rs s ss : Forall (valid ok le) (r :: rs) -> Permutation (r :: rs) (s :: ss) ->
  same_opt le (common cmp b r rs) (common cmp b s ss).
Proof.
  intros F P. assert (F' : Forall (valid ok le) (s :: ss)) by (eapply Permutation_Forall; eassumption).
  pose proof (common_pairs b r rs F) as H1. pose proof (common_pairs b s ss F') as H2.
  destruct (common_ok b closed closed r rs F) as (o & E & X). destruct (common_ok b closed closed s ss F') as (o' & E' & X'). rewrite E, E' in *.
  assert (IFF : (Ok o = Ok (@None (vrange T))) <-> (Ok o' = Ok (@None (vrange T)))).
  { pose proof (Permutation_sym P) as P'. rewrite H1, H2. split; intros (u & w & U & W & N'); exists u, w.
    - split; [exact (Permutation_in _ P U)|]. split; [exact (Permutation_in _ P W)|exact N'].
    - split; [exact (Permutation_in _ P' U)|]. split; [exact (Permutation_in _ P' W)|exact N']. }
  destruct o as [q|], o' as [q'|]; cbn [same_opt]; auto.
  - destruct X as (_ & (G1 & G2) & (L1 & L2) & _). destruct X' as (_ & (G1' & G2') & (L1' & L2') & _).
    assert (PM : forall x, In x (map vmin (r :: rs)) <-> In x (map vmin (s :: ss))).
    { intros x. split; apply Permutation_in; apply Permutation_map; auto using Permutation_sym. }
    assert (PX : forall x, In x (map vmax (r :: rs)) <-> In x (map vmax (s :: ss))).
    { intros x. split; apply Permutation_in; apply Permutation_map; auto using Permutation_sym. }
    split; [|split; [|split]].
    + apply G2'. now apply PM.
    + apply G2. now apply PM.
    + apply L2. now apply PX.
    + apply L2'. now apply PX.
  - destruct IFF as [_ H]. discriminate (H eq_refl).
  - destruct IFF as [H _]. discriminate (H eq_refl).
Qed.

(** ** Merging *)
(** The envelope of two ranges that are not apart. *)
Lemma envelope_two b lk hk r s : valid ok le r -> valid ok le s -> apart cmp r s = false ->
  exists e, envelope_ranges cmp b r [s] = Ok e /\ valid ok le e /\ (vmin e = vmin r \/ vmin e = vmin s) /\ (vmax e = vmax r \/ vmax e = vmax s) /\
    le (vmin e) (vmin r) /\ le (vmin e) (vmin s) /\
    (forall x, ok x -> in_interval le lk hk r x \/ in_interval le lk hk s x -> in_interval le lk hk e x) /\
    (forall x, ok x -> in_interval le lk hk e x -> (in_interval le lk hk r x \/ in_interval le lk hk s x) \/
       (lk = opened /\ hk = opened /\ ((equiv le x (vmax r) /\ equiv le x (vmin s)) \/ (equiv le x (vmax s) /\ equiv le x (vmin r))))).
Proof.
  intros V V' A. apply (apart_false ok cmp le O) in A; auto. destruct A as [A1 A2].
  destruct (envelope_ranges_hull ok cmp le O b lk hk r [s]) as (e & E & VE & (L1 & L2) & (G1 & G2) & IN & _); [constructor; [auto|now constructor]|].
  exists e. split; [exact E|]. split; [exact VE|]. cbn [map] in *.
  assert (ME : vmin e = vmin r \/ vmin e = vmin s) by (destruct L1 as [L1|[L1|[]]]; auto).
  assert (XE : vmax e = vmax r \/ vmax e = vmax s) by (destruct G1 as [L1'|[L1'|[]]]; auto).
  split; [exact ME|]. split; [exact XE|]. split; [apply L2; now left|]. split; [apply L2; right; now left|].
  split; [intros x X [H|H]; [apply (IN r)|apply (IN s)]; auto; [now left|right; now left]|].
  destruct V as (RA & RB & RL). destruct V' as (SA & SB & SL).
  (* the two ways to straddle the seam *)
  assert (SEAM : forall p q x, ok (vmin p) -> ok (vmax p) -> ok (vmin q) -> ok (vmax q) -> ok x -> le (vmin q) (vmax p) ->
    after_start le lk (vmin p) x -> before_end le hk (vmax q) x ->
    (in_interval le lk hk p x \/ in_interval le lk hk q x) \/ (lk = opened /\ hk = opened /\ equiv le x (vmax p) /\ equiv le x (vmin q))).
  { intros p q x PA PB QA QB X S U W. unfold in_interval. destruct lk; cbn [after_start] in *.
    - destruct (dec (vmin q) x) as [D|D]; auto. left. left. split; auto. destruct hk; cbn [before_end].
      + apply tr with (vmin q); auto. now apply not_le.
      + apply (lt_of_iff ok cmp le O); auto. intros Y. apply D. apply tr with (vmax p); auto.
    - destruct hk; cbn [before_end] in *.
      + destruct (dec x (vmax p)) as [D|D]; auto. left. right. split; auto. apply (lt_of_iff ok cmp le O); auto. intros Y. apply D. apply tr with (vmin q); auto.
      + destruct (dec (vmax p) x PB X) as [D|D].
        * destruct (dec x (vmin q) X QA) as [D2|D2].
          -- right. split; [reflexivity|]. split; [reflexivity|]. split; split; [apply tr with (vmin q); assumption|exact D|exact D2|apply tr with (vmax p); assumption].
          -- left. right. split; auto. apply (lt_of_iff ok cmp le O); auto.
        * left. left. split; auto. apply (lt_of_iff ok cmp le O); auto. }
  intros x X [U W]. destruct ME as [ME|ME], XE as [XE|XE]; rewrite ME in U; rewrite XE in W.
  - left. left. split; auto.
  - destruct (SEAM r s x) as [H|(H1 & H2 & H3)]; auto.
  - destruct (SEAM s r x) as [H|(H1 & H2 & H3)]; auto. left. tauto.
  - left. right. split; auto.
Qed.
Lemma merge_from_ok b lk hk : forall rs r, Forall (valid ok le) (r :: rs) -> by_start le (r :: rs) ->
  exists m ms, merge_from cmp b r rs = Ok (m :: ms) /\ Forall (valid ok le) (m :: ms) /\ separate le (m :: ms) /\ equiv le (vmin m) (vmin r) /\
    (forall q, In q (m :: ms) -> In (vmin q) (map vmin (r :: rs)) /\ In (vmax q) (map vmax (r :: rs))) /\
    (forall x, ok x -> in_some le lk hk (r :: rs) x -> in_some le lk hk (m :: ms) x) /\
    (forall x, ok x -> in_some le lk hk (m :: ms) x -> in_some le lk hk (r :: rs) x \/
       (lk = opened /\ hk = opened /\ exists p q, In p (r :: rs) /\ In q (r :: rs) /\ equiv le x (vmax p) /\ equiv le x (vmin q))).
Proof.
  induction rs as [|s rs IH]; intros r F B; pose proof (Forall_inv F) as V; pose proof V as (RA & RB & RL).
  - exists r, []. split; [reflexivity|]. split; [exact F|]. split; [exact Logic.I|]. split; [split; apply rf; auto|].
    split; [intros q [<-|[]]; split; now left|]. split; auto.
  - apply Forall_inv_tail in F. pose proof (Forall_inv F) as V'. pose proof V' as (SA & SB & SL). destruct B as [B1 B2].
    cbn [merge_from]. rewrite (overlap_eq ok cmp le O b r s V V'). cbn [obind]. destruct (apart cmp r s) eqn:A.
    + destruct (IH s F B2) as (m & ms & -> & FM & SP & EQ & EN & UN & NU). exists r, (m :: ms). cbn [obind]. split; [reflexivity|].
      pose proof (Forall_inv FM) as (MA & MB & ML). split; [constructor; auto|]. split.
      { split; [|exact SP]. apply (lt_of_iff ok cmp le O); auto. intros Y. apply apart_true in A; auto. destruct A as [A|A].
        - apply A. apply tr with (vmin s); auto.
        - apply A. apply tr with (vmin m); auto. apply EQ. }
      split; [split; apply rf; auto|]. split.
      { intros q [<-|I]; [split; now left|]. destruct (EN q I) as [I1 I2]. split; right; auto. }
      split.
      * intros x X (q & [<-|I] & Q); [exists r; split; [now left|exact Q]|]. destruct (UN x X) as (p & P & P'); [exists q; auto|]. exists p. split; [now right|exact P'].
      * intros x X (q & [<-|I] & Q); [left; exists r; split; [now left|exact Q]|]. destruct (NU x X) as [(p & P & P')|(H1 & H2 & p & p' & P & P' & Y)]; [exists q; auto| |].
        -- left. exists p. split; [now right|exact P'].
        -- right. split; [exact H1|]. split; [exact H2|]. exists p, p'. split; [now right|]. split; [now right|exact Y].
    + destruct (envelope_two b lk hk r s V V' A) as (e & -> & VE & ME & XE & LR & LS & UE & NE). cbn [obind].
      destruct (IH e) as (m & ms & -> & FM & SP & EQ & EN & UN & NU).
      { constructor; [exact VE|]. now apply Forall_inv_tail in F. }
      { destruct rs as [|t rs]; [exact Logic.I|]. destruct B2 as [B2 B3]. split; [|exact B3]. pose proof (Forall_inv (Forall_inv_tail F)) as (TA & _).
        destruct VE as (EA & _). apply tr with (vmin s); auto. }
      exists m, ms. split; [reflexivity|]. split; [exact FM|]. split; [exact SP|]. split.
      { assert (EE : equiv le (vmin e) (vmin r)).
        { split; [exact LR|]. destruct ME as [-> | ->]; [apply rf; auto|exact B1]. }
        pose proof (Forall_inv FM) as (MA & _). destruct VE as (EA & _). destruct EQ, EE. split; apply tr with (vmin e); auto. }
      split.
      { intros q I. destruct (EN q I) as [[I1|I1] [I2|I2]]; split; cbn [map In].
        all: try (right; right; assumption). all: try (rewrite <- I1; destruct ME; auto). all: try (rewrite <- I2; destruct XE; auto). }
      split.
      * intros x X (q & I & Q). destruct I as [<-|[<-|I]].
        -- apply UN; auto. exists e. split; [now left|]. apply UE; auto.
        -- apply UN; auto. exists e. split; [now left|]. apply UE; auto.
        -- apply UN; auto. exists q. split; [now right|exact Q].
      * intros x X H. destruct (NU x X H) as [(p & [<-|I] & P)|(H1 & H2 & p & p' & P & P' & Y1 & Y2)].
        -- destruct (NE x X P) as [[Q|Q]|(H1 & H2 & Q)].
           ++ left. exists r. split; [now left|exact Q].
           ++ left. exists s. split; [right; now left|exact Q].
           ++ right. split; [exact H1|]. split; [exact H2|]. destruct Q as [Q|Q]; [exists r, s|exists s, r]; cbn [In]; auto.
        -- left. exists p. split; [right; now right|exact P].
        -- right. split; [exact H1|]. split; [exact H2|].
           assert (PE : exists p0, In p0 (r :: s :: rs) /\ vmax p0 = vmax p).
           { destruct P as [<-|P]; [|exists p; cbn [In]; auto]. destruct XE as [-> | ->]; [exists r|exists s]; cbn [In]; auto. }
           assert (QE : exists q0, In q0 (r :: s :: rs) /\ vmin q0 = vmin p').
           { destruct P' as [<-|P']; [|exists p'; cbn [In]; auto]. destruct ME as [-> | ->]; [exists r|exists s]; cbn [In]; auto. }
           destruct PE as (p0 & I0 & E0). destruct QE as (q0 & J0 & F0). exists p0, q0. rewrite E0, F0. auto.
Qed.
Lemma merge_ok b lk hk rs : Forall (valid ok le) rs -> by_start le rs ->
  exists ms, merge cmp b rs = Ok ms /\ Forall (valid ok le) ms /\ separate le ms /\
    (forall q, In q ms -> In (vmin q) (map vmin rs) /\ In (vmax q) (map vmax rs)) /\
    (forall x, ok x -> in_some le lk hk rs x -> in_some le lk hk ms x) /\
    (forall x, ok x -> in_some le lk hk ms x -> in_some le lk hk rs x \/
       (lk = opened /\ hk = opened /\ exists p q, In p rs /\ In q rs /\ equiv le x (vmax p) /\ equiv le x (vmin q))).
Proof.
  intros F B. destruct rs as [|r rs].
  - exists []. split; [reflexivity|]. split; [constructor|]. split; [exact Logic.I|]. split; [intros q []|]. split; auto.
  - destruct (merge_from_ok b lk hk rs r F B) as (m & ms & E & A1 & A2 & _ & A3 & A4 & A5). exists (m :: ms). split; [exact E|]. auto 10.
Qed.
Lemma merge_exact b lk hk rs : ~ (lk = opened /\ hk = opened) -> Forall (valid ok le) rs -> by_start le rs ->
  exists ms, merge cmp b rs = Ok ms /\ Forall (valid ok le) ms /\ separate le ms /\
    forall x, ok x -> in_some le lk hk ms x <-> in_some le lk hk rs x.
Proof.
  intros K F B. destruct (merge_ok b lk hk rs F B) as (ms & E & A1 & A2 & _ & A4 & A5). exists ms. split; [exact E|]. split; [exact A1|]. split; [exact A2|].
  intros x X. split; [|now apply A4]. intros H. destruct (A5 x X H) as [H'|(H1 & H2 & _)]; tauto.
Qed.
End P.
From Coq Require Import ZArith Lia.
Lemma merge_refuted : exists rs ms : list (vrange Z), Forall (valid anything Z.le) rs /\ by_start Z.le rs /\
  merge zcmp Release rs = Ok ms /\ in_some Z.le opened opened ms 2%Z /\ ~ in_some Z.le opened opened rs 2%Z.
Proof.
  exists [VR 0 2; VR 2 4]%Z, [VR 0 4]%Z.
  split; [repeat (apply Forall_cons; [unfold valid, anything; cbn [vmin vmax]; repeat split; lia|]); constructor|].
  split; [unfold by_start; cbn [neighbours vmin vmax]; lia|]. split; [vm_compute; reflexivity|]. split.
  - exists (VR 0 4)%Z. split; [now left|]. unfold in_interval, after_start, before_end, lt_of. cbn [vmin vmax]. lia.
  - intros (r & [<-|[<-|[]]] & H); unfold in_interval, after_start, before_end, lt_of in H; cbn [vmin vmax] in H; lia.
Qed.
