(** Proofs about lists of values in text. *)
From Coq Require Import List Lia. Import ListNotations.
From Verif Require Import Base BaseFacts Io_Model Hex_Model Hex_Spec Hex_Proofs Uuid_Model Uuid_Spec Uuid_Proofs UuidParse_Proofs
  String_Model String_Spec String_Proofs ListText_Spec.
Open Scope N_scope. Open Scope list_scope.

Lemma each_ok {A B} (g : A -> outcome B) (h : A -> B) l : Forall (fun x => g x = Ok (h x)) l -> each g l = Ok (map h l).
Proof. induction 1 as [|x r E _ IH]; [reflexivity|]. cbn [each map]. now rewrite E, IH. Qed.

Lemma strip_around {A} ct white d (p : padded A) t : padding_ok ct white d p -> bare ct white d t ->
  strip ct white (around p t) = Ok t.
Proof.
  intros (F & B & _) (NS & NE & _ & T).
  assert (TT : Forall (testable ct) (around p t)).
  { unfold around. rewrite !Forall_app. split; [|split]; [|assumption|];
      eapply Forall_impl; try eassumption; intros c; apply space_testable. }
  destruct (strip_ok ct white _ TT) as (u & E & U & _). rewrite E. f_equal.
  eapply stripped_unique; [exact U|]. exists (front p), (back p). now repeat split.
Qed.

Lemma write_read {A} ct white d max_size (show : A -> outcome (list N)) (text : A -> list N) parse (l : list (padded A)) :
  l <> [] -> Forall (padding_ok ct white d) l -> Forall (fun p => bare ct white d (text (item p))) l ->
  Forall (fun p => show (item p) = Ok (text (item p))) l ->
  Forall (fun p => parse (text (item p)) = Ok (item p)) l ->
  joined_length (map (fun p => around p (text (item p))) l) <= max_size -> max_size < size_mod ->
  exists s, write_list max_size d show l = Ok s /\ s = joined d (map (fun p => around p (text (item p))) l) /\
    read_list ct white d parse s = Ok (map item l).
Proof.
  intros NE P B S R L M. unfold write_list.
  rewrite (each_ok _ (fun p => around p (text (item p)))).
  2:{ eapply Forall_impl; [|exact S]. intros p E. cbn beta in *. now rewrite E. }
  cbn [obind]. set (ts := map (fun p => around p (text (item p))) l) in *.
  pose proof (join_ok max_size ts d) as J. rewrite J by assumption. eexists. split; [reflexivity|]. split; [reflexivity|].
  unfold read_list. rewrite (join_then_split max_size ts d); try assumption.
  - cbn [obind]. subst ts. clear - P B R. induction l as [|p l IH]; [reflexivity|].
    cbn [map each]. rewrite (strip_around ct white d _ _ (Forall_inv P) (Forall_inv B)).
    cbn [obind]. rewrite (Forall_inv R). cbn [obind]. rewrite (IH (Forall_inv_tail P) (Forall_inv_tail B) (Forall_inv_tail R)). reflexivity.
  - subst ts. destruct l; [congruence|discriminate].
  - subst ts. apply Forall_map. apply Forall_forall. intros p I. unfold around.
    pose proof (proj1 (Forall_forall _ _) P p I) as (_ & _ & NF & NB).
    pose proof (proj1 (Forall_forall _ _) B p I) as (_ & _ & NT & _). rewrite !in_app_iff. tauto.
  - now apply J.
Qed.

Lemma fields ct white d max_size (l : list (padded (list N))) :
  l <> [] -> Forall (padding_ok ct white d) l -> Forall (fun p => bare ct white d (item p)) l ->
  joined_length (map (fun p => around p (item p)) l) <= max_size -> max_size < size_mod ->
  exists s, write_list max_size d (fun t => Ok t) l = Ok s /\ read_list ct white d (fun t => Ok t) s = Ok (map item l).
Proof.
  intros NE P B L M.
  destruct (write_read ct white d max_size (fun t => Ok t) (fun t => t) (fun t => Ok t) l) as (s & W & _ & R); try assumption.
  - apply Forall_forall. reflexivity.
  - apply Forall_forall. reflexivity.
  - now exists s.
Qed.

Lemma any_text ct white d s : Forall (testable ct) s ->
  exists l : list (padded (list N)), l <> [] /\ s = joined d (map (fun p => around p (item p)) l) /\
    Forall (padding_ok ct white d) l /\ Forall (fun p => bare ct white d (item p)) l /\
    read_list ct white d (fun t => Ok t) s = Ok (map item l).
Proof.
  intros T.
  assert (G : forall ts : list (list N), Forall (fun t => ~ In d t) ts -> Forall (Forall (testable ct)) ts ->
    exists l : list (padded (list N)), ts = map (fun p => around p (item p)) l /\
      Forall (padding_ok ct white d) l /\ Forall (fun p => bare ct white d (item p)) l /\
      each (fun t => let! u := strip ct white t in Ok u) ts = Ok (map item l)).
  { clear. induction ts as [|t ts IH]; intros ND T.
    - now exists [].
    - destruct IH as (l & -> & P & B & E); [now inversion ND|now inversion T|].
      apply Forall_inv in ND. apply Forall_inv in T.
      destruct (strip_ok ct white t T) as (u & S & (fr & bk & -> & F & K & NS & NE) & _).
      rewrite !in_app_iff in ND. rewrite !Forall_app in T.
      exists (Pad fr u bk :: l). split; [reflexivity|]. split; [|split].
      + constructor; [|assumption]. repeat split; cbn [front back]; tauto.
      + constructor; [|assumption]. repeat split; cbn [item]; tauto.
      + cbn [each]. rewrite S. cbn [obind]. rewrite E. reflexivity. }
  pose proof (tokens_joined d s) as J.
  destruct (G (tokens d s)) as (l & E & P & B & R).
  - apply tokens_no_delim.
  - apply Forall_forall. intros t I. apply Forall_forall. intros c C. eapply Forall_forall; [exact T|].
    rewrite <- J. clear - I C. revert I. induction (tokens d s) as [|t' r IH]; intros I; [destruct I|].
    destruct r as [|t'' r'].
    + destruct I as [->|[]]. assumption.
    + change (In c (t' ++ d :: joined d (t'' :: r'))). apply in_app_iff. destruct I as [->|I]; [now left|right; right; now apply IH].
  - exists l. split; [|split; [|split; [|split]]]; try assumption.
    + intros ->. cbn [map] in E. destruct (tokens_cons d s) as (t & ts & T'). congruence.
    + now rewrite <- E.
    + unfold read_list. rewrite split_ok. cbn [kept obind]. exact R.
Qed.

Lemma bare_of ct white d t : Forall (fun c => c < 128 /\ c <> d /\ white c = false) t -> bare ct white d t.
Proof.
  intros F. repeat split.
  - intros (c & r & -> & W & _). apply Forall_inv in F. destruct F as (_ & _ & F). congruence.
  - intros (c & r & -> & W & _). apply Forall_app in F. destruct F as [_ F]. apply Forall_inv in F. destruct F as (_ & _ & F). congruence.
  - intros I. eapply Forall_forall in I; [|exact F]. now destruct I as (_ & I & _).
  - eapply Forall_impl; [|exact F]. intros c (L & _). destruct ct; cbn; repeat match goal with |- context [if ?b then _ else _] => destruct b end; auto.
Qed.

Lemma digit_small up n : n < 16 -> digit up n < 128.
Proof. intros H. unfold digit, upper_digit, lower_digit. destruct up; destruct (N.ltb_spec n 10); lia. Qed.
Lemma bytes_text_small up bs : Forall (fun c => c < 128) (bytes_text up bs).
Proof.
  unfold bytes_text. apply Forall_flat_map. apply Forall_forall. intros b _. pose proof (to_N_lt b).
  constructor; [|constructor; [|constructor]]; apply digit_small.
  - apply N.div_lt_upper_bound; lia.
  - apply N.mod_lt; lia.
Qed.
Lemma Forall_part (P : N -> Prop) ds i n : Forall P ds -> Forall P (part ds i n).
Proof. intros F. unfold part. apply Forall_forall. intros c I. eapply Forall_forall; [exact F|].
  rewrite <- (firstn_skipn i ds). apply in_app_iff. right. rewrite <- (firstn_skipn n (skipn i ds)). apply in_app_iff. now left. Qed.
Lemma uuid_text_small up f u : Forall (fun c => c < 128) (uuid_text up f u).
Proof.
  unfold uuid_text. assert (F : Forall (fun c => c < 128) (uuid_digits up u)) by apply bytes_text_small.
  assert (P : forall i n, Forall (fun c => c < 128) (part (uuid_digits up u) i n)) by (intros; now apply Forall_part).
  destruct f; cbn [layout]; unfold dashed; rewrite ?Forall_app; repeat split; try apply P; try assumption;
    repeat constructor.
Qed.

Lemma hex_list ct white w d max_size (l : list (padded (list byte))) :
  l <> [] -> Forall (padding_ok ct white d) l ->
  Forall (fun p => Forall (fun c => c <> d /\ white c = false) (bytes_text true (item p))) l ->
  joined_length (map (fun p => around p (bytes_text true (item p))) l) <= max_size -> max_size < size_mod ->
  exists s, write_list max_size d hexlify l = Ok s /\ s = joined d (map (fun p => around p (bytes_text true (item p))) l) /\
    read_list ct white d (unhexlify w) s = Ok (map item l).
Proof.
  intros NE P B L M. apply (write_read ct white d max_size hexlify (bytes_text true)); try assumption.
  - eapply Forall_impl; [|exact B]. intros p F. apply bare_of. apply Forall_forall. intros c I. split.
    + exact (proj1 (Forall_forall _ _) (bytes_text_small true (item p)) c I).
    + exact (proj1 (Forall_forall _ _) F c I).
  - apply Forall_forall. intros p _. exact (hexlify_ok (item p)).
  - apply Forall_forall. intros p _. apply unhexlify_denotes. exact (flat_enc_denotes (item p)).
Qed.

Lemma uuid_list ct white m w after up f d max_size (l : list (padded (list byte))) :
  l <> [] -> In 0 after -> Forall (padding_ok ct white d) l -> Forall (fun p => is_uuid (item p)) l ->
  Forall (fun p => Forall (fun c => c <> d /\ white c = false) (uuid_text up f (item p))) l ->
  joined_length (map (fun p => around p (uuid_text up f (item p))) l) <= max_size -> max_size < size_mod ->
  exists s, write_list max_size d (fun u => to_string (Env m m) w u (letter up f)) l = Ok s /\
    s = joined d (map (fun p => around p (uuid_text up f (item p))) l) /\
    read_list ct white d (fun t => uuid_from_string w after t (letter up f)) s = Ok (map item l).
Proof.
  intros NE Z P U B L M.
  apply (write_read ct white d max_size (fun u => to_string (Env m m) w u (letter up f)) (uuid_text up f)); try assumption.
  - eapply Forall_impl; [|exact B]. intros p F. apply bare_of. apply Forall_forall. intros c I. split.
    + exact (proj1 (Forall_forall _ _) (uuid_text_small up f (item p)) c I).
    + exact (proj1 (Forall_forall _ _) F c I).
  - eapply Forall_impl; [|exact U]. intros p V. now apply to_string_char.
  - eapply Forall_impl; [|exact U]. intros p V. apply (roundtrip m); try assumption. now apply to_string_char.
Qed.
