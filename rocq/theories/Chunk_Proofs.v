(** Proofs about reading messages from pieces. *)
From Coq Require Import List Lia NArith. Import ListNotations.
From Verif Require Import Base BaseFacts Io_Model Io_Spec Io_Proofs IoRead_Proofs IoView_Model IoView_Spec IoView_Proofs Group_Proofs Chunk_Spec.
Local Open Scope N_scope.

Lemma sizes_repeat t k : types_size (repeat t k) = N.of_nat k * value_size t.
Proof. induction k as [|k IH]; [reflexivity|]. cbn [repeat]. rewrite types_size_cons, IH. lia. Qed.

(** One call, whichever it is. *)
Section Calls.
Context (ev : env) (d : list byte) (p : N) (P : p <= lenN d) (L : lenN d < size_mod).
Lemma call_read ts : rop_ok (RRead ts) -> rv_step ev (RView d p) (RRead ts) =
  if lenN d <? p + types_size ts then (RView d p, Throw out_of_range)
  else (RView d (p + types_size ts), Ok (ROVals (decode_all ev ts (dropN p d)))).
Proof. intros O. rewrite rv_step_char by assumption. reflexivity. Qed.
Lemma call_range t k : rop_ok (RReadRange t k) -> rv_step ev (RView d p) (RReadRange t k) =
  if lenN d <? p + types_size (repeat t k) then (RView d p, Throw out_of_range)
  else (RView d (p + types_size (repeat t k)), Ok (ROVals (decode_all ev (repeat t k) (dropN p d)))).
Proof. intros O. rewrite rv_step_char by assumption. rewrite sizes_repeat. reflexivity. Qed.
Lemma call_try_range t k : rop_ok (RReadRange t k) -> rv_step ev (RView d p) (RTryReadRange t k) =
  if lenN d <? p + types_size (repeat t k) then (RView d (lenN d), Ok (ROTryRange (RErr rd_insufficient_buffer)))
  else (RView d (p + types_size (repeat t k)), Ok (ROTryRange (RVal (decode_all ev (repeat t k) (dropN p d))))).
Proof. intros O. rewrite rv_step_char by assumption. rewrite sizes_repeat. reflexivity. Qed.
Lemma values_all vs : values_of (map RVal vs) = Some vs.
Proof. induction vs as [|v vs IH]; [reflexivity|]. cbn [map values_of]. now rewrite IH. Qed.
Lemma values_none vs n : values_of (map RVal vs ++ repeat (RErr rd_insufficient_buffer) (S n)) = None.
Proof. induction vs as [|v vs IH]; [reflexivity|]. cbn [map app values_of]. now rewrite IH. Qed.
Lemma call_try ts : rop_ok (RRead ts) -> exists rs, rv_step ev (RView d p) (RTryRead ts) = (RView d (N.min (lenN d) (p + types_size ts)), Ok (ROTry rs)) /\
  values_of rs = if lenN d <? p + types_size ts then None else Some (decode_all ev ts (dropN p d)).
Proof.
  intros O. rewrite rv_step_char by assumption. cbn [rv_data rv_pos]. eexists. split; [reflexivity|]. unfold rv_rest. cbn [rv_data rv_pos].
  destruct (N.ltb_spec (lenN d) (p + types_size ts)) as [S|S].
  - pose proof (fit_count_le ts (lenN d - p)) as F. pose proof (fit_count_fits ts (lenN d - p)) as G.
    destruct (Nat.eq_dec (fit_count ts (lenN d - p)) (length ts)) as [E|E].
    + rewrite E, firstn_all in G. lia.
    + destruct (length ts - fit_count ts (lenN d - p))%nat as [|n] eqn:X; [lia|]. apply values_none.
  - rewrite fit_count_all by lia. rewrite firstn_all, Nat.sub_diag. cbn [repeat]. rewrite app_nil_r. apply values_all.
Qed.
End Calls.

(** What is decoded does not depend on what follows. *)
Lemma decode_more ev ts p d x : p + types_size ts <= lenN d -> decode_all ev ts (dropN p (d ++ x)) = decode_all ev ts (dropN p d).
Proof.
  intros H. rewrite (decode_all_take ev ts (dropN p (d ++ x))) by (rewrite lenN_dropN, lenN_app; lia).
  rewrite (decode_all_take ev ts (dropN p d)) by (rewrite lenN_dropN; lia). f_equal.
  rewrite dropN_app, takeN_app. rewrite (proj2 (N.sub_0_le _ _)) by (rewrite lenN_dropN; lia). rewrite takeN_0. apply app_nil_r.
Qed.

Section Readers.
Context {A : Type} (ev : env).

Lemma read_total : forall r : reader A, reader_ok r -> forall d p, p <= lenN d -> lenN d < size_mod ->
  exists m q, read_message ev r (RView d p) = Ok (m, RView d q) /\ p <= q <= lenN d.
Proof.
  induction r as [a|ts k IH|t n k IH]; intros O d p P L.
  - exists (Some a), p. split; [reflexivity|lia].
  - destruct O as (O & OK). cbn [read_message]. rewrite call_read by assumption.
    destruct (N.ltb_spec (lenN d) (p + types_size ts)) as [S|S]; [exists None, p; split; [reflexivity|lia]|].
    destruct (IH _ (OK (decode_all ev ts (dropN p d))) d (p + types_size ts)) as (m & q & E & B); [lia|exact L|]. exists m, q. split; [exact E|lia].
  - destruct O as (O & OK). cbn [read_message]. rewrite call_range by assumption.
    destruct (N.ltb_spec (lenN d) (p + types_size (repeat t n))) as [S|S]; [exists None, p; split; [reflexivity|lia]|].
    destruct (IH _ (OK (decode_all ev (repeat t n) (dropN p d))) d (p + types_size (repeat t n))) as (m & q & E & B); [lia|exact L|].
    exists m, q. split; [exact E|lia].
Qed.

Lemma read_more : forall r : reader A, reader_ok r -> forall d x p a q, p <= lenN d -> lenN (d ++ x) < size_mod ->
  read_message ev r (RView d p) = Ok (Some a, RView d q) -> read_message ev r (RView (d ++ x) p) = Ok (Some a, RView (d ++ x) q).
Proof.
  induction r as [a|ts k IH|t n k IH]; intros O d x p a' q P L E.
  - cbn [read_message] in *. injection E as -> ->. reflexivity.
  - destruct O as (O & OK). cbn [read_message] in *. pose proof L as L'. rewrite lenN_app in L'.
    rewrite call_read in E by (assumption || lia). rewrite call_read by (assumption || rewrite lenN_app; lia).
    destruct (N.ltb_spec (lenN d) (p + types_size ts)) as [S|S]; [discriminate|].
    rewrite (proj2 (N.ltb_ge _ _)) by (rewrite lenN_app; lia). rewrite decode_more by lia. apply IH; auto.
  - destruct O as (O & OK). cbn [read_message] in *. pose proof L as L'. rewrite lenN_app in L'.
    rewrite call_range in E by (assumption || lia). rewrite call_range by (assumption || rewrite lenN_app; lia).
    destruct (N.ltb_spec (lenN d) (p + types_size (repeat t n))) as [S|S]; [discriminate|].
    rewrite (proj2 (N.ltb_ge _ _)) by (rewrite lenN_app; lia). rewrite decode_more by lia. apply IH; auto.
Qed.

Lemma read_less : forall r : reader A, reader_ok r -> forall d x p a q, p <= lenN d -> lenN (d ++ x) < size_mod ->
  read_message ev r (RView (d ++ x) p) = Ok (Some a, RView (d ++ x) q) -> q <= lenN d ->
  read_message ev r (RView d p) = Ok (Some a, RView d q).
Proof.
  induction r as [a|ts k IH|t n k IH]; intros O d x p a' q P L E Q.
  - cbn [read_message] in *. injection E as -> ->. reflexivity.
  - destruct O as (O & OK). cbn [read_message] in *. pose proof L as L'. rewrite lenN_app in L'.
    rewrite call_read in E by (assumption || rewrite lenN_app; lia). rewrite call_read by (assumption || lia).
    destruct (N.ltb_spec (lenN (d ++ x)) (p + types_size ts)) as [S|S]; [discriminate|].
    destruct (read_total _ (OK (decode_all ev ts (dropN p (d ++ x)))) (d ++ x) (p + types_size ts)) as (m & q' & E' & B); [lia|exact L|].
    rewrite E in E'. injection E' as <- <-.
    rewrite (proj2 (N.ltb_ge _ _)) by lia. rewrite decode_more in E by lia. apply IH with x; auto; lia.
  - destruct O as (O & OK). cbn [read_message] in *. pose proof L as L'. rewrite lenN_app in L'.
    rewrite call_range in E by (assumption || rewrite lenN_app; lia). rewrite call_range by (assumption || lia).
    destruct (N.ltb_spec (lenN (d ++ x)) (p + types_size (repeat t n))) as [S|S]; [discriminate|].
    destruct (read_total _ (OK (decode_all ev (repeat t n) (dropN p (d ++ x)))) (d ++ x) (p + types_size (repeat t n))) as (m & q' & E' & B); [lia|exact L|].
    rewrite E in E'. injection E' as <- <-.
    rewrite (proj2 (N.ltb_ge _ _)) by lia. rewrite decode_more in E by lia. apply IH with x; auto; lia.
Qed.

Lemma read_try : forall r : reader A, reader_ok r -> forall d p m v, p <= lenN d -> lenN d < size_mod ->
  read_message ev r (RView d p) = Ok (m, v) ->
  exists v', try_read_message ev r (RView d p) = Ok (m, v') /\ (m <> None -> v' = v).
Proof.
  induction r as [a|ts k IH|t n k IH]; intros O d p m v P L E.
  - cbn [read_message try_read_message] in *. injection E as <- <-. eauto.
  - destruct O as (O & OK). cbn [read_message try_read_message] in *. rewrite call_read in E by assumption.
    destruct (call_try ev d p P L ts O) as (rs & -> & V). rewrite V.
    destruct (N.ltb_spec (lenN d) (p + types_size ts)) as [S|S].
    + injection E as <- <-. eexists. split; [reflexivity|congruence].
    + rewrite N.min_r by lia. apply IH; auto.
  - destruct O as (O & OK). cbn [read_message try_read_message] in *. rewrite call_range in E by assumption. rewrite call_try_range by assumption.
    destruct (N.ltb_spec (lenN d) (p + types_size (repeat t n))) as [S|S].
    + injection E as <- <-. eexists. split; [reflexivity|congruence].
    + apply IH; auto.
Qed.

Lemma reads_forward (r : reader A) d a q : reader_ok r -> takes_bytes r -> lenN d < size_mod ->
  read_message ev r (rv_init d) = Ok (Some a, RView d q) -> 0 < q <= lenN d.
Proof.
  intros O T L E. destruct r as [|ts k|]; try contradiction. destruct O as (O & OK). cbn [read_message] in E. unfold rv_init in E.
  rewrite call_read in E by (assumption || lia). destruct (N.ltb_spec (lenN d) (0 + types_size ts)) as [S|S]; [discriminate|].
  destruct (read_total _ (OK (decode_all ev ts (dropN 0 d))) d (0 + types_size ts)) as (m & q' & E' & B); [lia|exact L|].
  rewrite E in E'. injection E' as <- <-. destruct O as (NE & V & _). destruct ts as [|t ts]; [congruence|].
  pose proof (value_size_pos t (Forall_inv V)) as VS. rewrite types_size_cons in B. lia.
Qed.

(** A message cut off is none; with more behind it, it is the same. *)
Lemma message_prefix (r : reader A) d a v n : reader_ok r -> lenN d < size_mod -> read_message ev r (rv_init d) = Ok (Some a, v) ->
  exists v', read_message ev r (rv_init (takeN n d)) = Ok (if n <? rv_pos v then None else Some a, v') /\
             (rv_pos v <= n -> rv_pos v' = rv_pos v).
Proof.
  intros O L E. destruct (read_total r O d 0) as (m & q & E' & B); [lia|exact L|]. unfold rv_init in *. rewrite E in E'. injection E' as <- ->.
  cbn [rv_pos]. assert (LT : lenN (takeN n d) <= lenN d) by (rewrite lenN_takeN; lia).
  destruct (read_total r O (takeN n d) 0) as (m & q' & E' & B'); [lia|lia|].
  pose proof (takeN_dropN n d) as SP. assert (LA : lenN (takeN n d ++ dropN n d) < size_mod) by now rewrite SP.
  destruct (N.ltb_spec n q) as [S|S].
  - exists (RView (takeN n d) q'). split; [|lia]. rewrite E'. destruct m as [a'|]; [|reflexivity].
    apply (read_more r O _ (dropN n d)) in E'; [|lia|exact LA]. rewrite SP, E in E'. injection E' as -> ->. rewrite lenN_takeN in B'. lia.
  - exists (RView (takeN n d) q). split; [|reflexivity].
    apply (read_less r O _ (dropN n d)); [lia|exact LA|rewrite SP; exact E|rewrite lenN_takeN; lia].
Qed.
Lemma message_more (r : reader A) d a v x : reader_ok r -> lenN (d ++ x) < size_mod -> read_message ev r (rv_init d) = Ok (Some a, v) ->
  exists v', read_message ev r (rv_init (d ++ x)) = Ok (Some a, v') /\ rv_pos v' = rv_pos v.
Proof.
  intros O L E. pose proof L as L'. rewrite lenN_app in L'. destruct (read_total r O d 0) as (m & q & E' & B); [lia|lia|]. unfold rv_init in *.
  rewrite E in E'. injection E' as <- ->. exists (RView (d ++ x) q). split; [|reflexivity]. apply read_more; [exact O|lia|exact L|exact E].
Qed.
Lemma message_try (r : reader A) d : reader_ok r -> lenN d < size_mod -> exists m v v',
  read_message ev r (rv_init d) = Ok (m, v) /\ try_read_message ev r (rv_init d) = Ok (m, v') /\ (m <> None -> v' = v).
Proof.
  intros O L. destruct (read_total r O d 0) as (m & q & E & _); [lia|exact L|]. destruct (read_try r O d 0 m _ ltac:(lia) L E) as (v' & T & X).
  exists m, (RView d q), v'. auto.
Qed.

(** ** Receivers *)
Context (r : reader A) (O : reader_ok r) (T : takes_bytes r).
Let drain := drain (read_message ev r).
Lemma one d : lenN d < size_mod ->
  (exists v, read_message ev r (rv_init d) = Ok (None, v)) \/
  (exists a q, read_message ev r (rv_init d) = Ok (Some a, RView d q) /\ 0 < q <= lenN d).
Proof.
  intros L. destruct (read_total r O d 0) as (m & q & E & B); [lia|exact L|]. destruct m as [a|]; [right|left; eauto].
  exists a, q. split; [exact E|]. exact (reads_forward r d a q O T L E).
Qed.
Lemma length_drop (q : N) (d : list byte) : 0 < q <= lenN d -> (length (dropN q d) < length d)%nat.
Proof. intros H. pose proof (lenN_dropN q d) as X. unfold lenN in *. lia. Qed.
Lemma drain_ok : forall n d, (length d < n)%nat -> lenN d < size_mod -> exists ms rest, drain n d = Ok (ms, rest).
Proof.
  induction n as [|n IH]; intros d F L; [lia|]. unfold drain. cbn [Chunk_Spec.drain].
  destruct (one d L) as [(v & ->)|(a & q & -> & B)]; cbn [obind]; [eauto|]. cbn [rv_pos].
  destruct (IH (dropN q d)) as (ms & rest & E); [pose proof (length_drop q d B); lia|rewrite lenN_dropN; lia|]. unfold drain in E. rewrite E. cbn [obind]. eauto.
Qed.
Lemma drain_more : forall n d x ms rest, (length d < n)%nat -> lenN (d ++ x) < size_mod -> drain n d = Ok (ms, rest) ->
  forall n', (length (d ++ x) < n')%nat -> forall n2, (length (rest ++ x) < n2)%nat ->
  lenN rest <= lenN d /\ drain n' (d ++ x) = let! (ms2, rest2) := drain n2 (rest ++ x) in Ok (ms ++ ms2, rest2).
Proof.
  assert (FU : forall n n' d, (length d < n)%nat -> (length d < n')%nat -> lenN d < size_mod -> drain n d = drain n' d).
  { induction n as [|n IH]; intros n' d F F' L; [lia|]. destruct n' as [|n']; [lia|]. unfold drain in *. cbn [Chunk_Spec.drain].
    destruct (one d L) as [(v & ->)|(a & q & -> & B)]; cbn [obind]; [reflexivity|]. cbn [rv_pos]. pose proof (length_drop q d B).
    rewrite (IH n') by (lia || rewrite lenN_dropN; lia). reflexivity. }
  induction n as [|n IH]; intros d x ms rest F L E n' F' n2 F2; [lia|]. unfold drain in *. cbn [Chunk_Spec.drain] in E. pose proof L as L'. rewrite lenN_app in L'.
  destruct (one d ltac:(lia)) as [(v & D)|(a & q & D & B)]; rewrite D in E; cbn [obind] in E.
  - injection E as <- <-. split; [lia|]. rewrite (FU n' n2) by (assumption || lia). cbn [app].
    destruct (Chunk_Spec.drain (read_message ev r) n2 (d ++ x)) as [[? ?]| | | |]; reflexivity.
  - cbn [rv_pos] in E. destruct (Chunk_Spec.drain (read_message ev r) n (dropN q d)) as [[ms1 rest1]| | | |] eqn:E1; try discriminate.
    cbn [obind] in E. injection E as <- <-. destruct n' as [|n']; [lia|]. cbn [Chunk_Spec.drain].
    unfold rv_init in *. rewrite (read_more r O d x 0 a q ltac:(lia) L D). cbn [obind rv_pos].
    assert (DA : dropN q (d ++ x) = dropN q d ++ x).
    { rewrite dropN_app. rewrite (proj2 (N.sub_0_le _ _)) by lia. now rewrite dropN_0. }
    rewrite DA. pose proof (length_drop q d B) as LD.
    destruct (IH (dropN q d) x ms1 rest1) with (n' := n') (n2 := n2) as (LR & E2); [lia|rewrite lenN_app, lenN_dropN; lia|exact E1| |exact F2|].
    { rewrite app_length in *. lia. }
    split; [rewrite lenN_dropN in LR; lia|]. rewrite E2.
    destruct (Chunk_Spec.drain (read_message ev r) n2 (rest1 ++ x)) as [[? ?]| | | |]; reflexivity.
Qed.
(** What is pending holds no message. *)
Lemma drain_rest : forall n d ms rest, lenN d < size_mod -> drain n d = Ok (ms, rest) ->
  (exists v, read_message ev r (rv_init rest) = Ok (None, v)) /\ exists used, d = used ++ rest.
Proof.
  induction n as [|n IH]; intros d ms rest L E; [discriminate|]. unfold drain in *. cbn [Chunk_Spec.drain] in E.
  destruct (one d L) as [(v & D)|(a & q & D & B)]; rewrite D in E; cbn [obind] in E.
  - injection E as <- <-. split; [eauto|]. exists []. reflexivity.
  - cbn [rv_pos] in E. destruct (Chunk_Spec.drain (read_message ev r) n (dropN q d)) as [[ms1 rest1]| | | |] eqn:E1; try discriminate.
    cbn [obind] in E. injection E as <- <-. destruct (IH (dropN q d) ms1 rest1) as (X & u & U); [rewrite lenN_dropN; lia|exact E1|].
    split; [exact X|]. exists (takeN q d ++ u). rewrite <- app_assoc, <- U. symmetry. apply takeN_dropN.
Qed.
Lemma drain_nothing d v n : read_message ev r (rv_init d) = Ok (None, v) -> drain (S n) d = Ok ([], d).
Proof. intros E. unfold drain. cbn [Chunk_Spec.drain]. rewrite E. reflexivity. Qed.

Lemma pieces_ok : forall pieces pending v n, lenN (pending ++ concat pieces) < size_mod -> read_message ev r (rv_init pending) = Ok (None, v) ->
  (length (pending ++ concat pieces) < n)%nat ->
  receive_pieces (read_message ev r) pending pieces = drain n (pending ++ concat pieces).
Proof.
  induction pieces as [|c pieces IH]; intros pending v n L E F; cbn [receive_pieces concat] in *.
  - rewrite app_nil_r in *. destruct n as [|n]; [lia|]. symmetry. eapply drain_nothing. exact E.
  - rewrite app_assoc in *. pose proof L as L'. rewrite lenN_app in L'.
    destruct (drain_ok (S (length (pending ++ c))) (pending ++ c)) as (ms & rest & D); [lia|lia|]. fold drain. rewrite D. cbn [obind].
    destruct (drain_rest _ (pending ++ c) ms rest ltac:(lia) D) as ((v' & N') & (u & U)).
    pose proof (f_equal (@length byte) U) as UL. rewrite (app_length u) in UL. pose proof (f_equal lenN U) as UN. rewrite (lenN_app u) in UN.
    rewrite (IH rest v' (S (length (rest ++ concat pieces)))); [|rewrite lenN_app; lia|exact N'|lia].
    destruct (drain_more (S (length (pending ++ c))) (pending ++ c) (concat pieces) ms rest) with (n' := n) (n2 := S (length (rest ++ concat pieces))) as (_ & X);
      [lia|exact L|exact D|exact F|lia|]. rewrite X. reflexivity.
Qed.
End Readers.

(** Nothing is not a message. *)
Lemma nothing {A} ev (r : reader A) : reader_ok r -> takes_bytes r -> exists v, read_message ev r (rv_init []) = Ok (None, v).
Proof.
  intros O T. destruct (one ev r O T [] ltac:(reflexivity)) as [X|(a & q & _ & B)]; [exact X|]. change (lenN (@nil byte)) with 0 in B. lia.
Qed.
Lemma pieces_whole {A} ev (r : reader A) pieces : reader_ok r -> takes_bytes r -> lenN (concat pieces) < size_mod ->
  exists ms rest, receive_pieces (read_message ev r) [] pieces = Ok (ms, rest) /\
    drain (read_message ev r) (S (length (concat pieces))) (concat pieces) = Ok (ms, rest) /\
    (exists used, concat pieces = used ++ rest) /\ (exists v, read_message ev r (rv_init rest) = Ok (None, v)).
Proof.
  intros O T L. destruct (nothing ev r O T) as (v & E).
  destruct (drain_ok ev r O T (S (length (concat pieces))) (concat pieces)) as (ms & rest & D); [lia|exact L|].
  destruct (drain_rest ev r O T _ _ _ _ L D) as (X & Y).
  exists ms, rest. split; [|split; [exact D|split; [exact Y|exact X]]].
  rewrite (pieces_ok ev r O T pieces [] v (S (length (concat pieces)))); [exact D|exact L|exact E|cbn [app]; lia].
Qed.
Lemma any_pieces {A} ev (r : reader A) p1 p2 : reader_ok r -> takes_bytes r -> lenN (concat p1) < size_mod -> concat p1 = concat p2 ->
  receive_pieces (read_message ev r) [] p1 = receive_pieces (read_message ev r) [] p2.
Proof.
  intros O T L E. destruct (pieces_whole ev r p1 O T L) as (ms & rest & -> & D & _). rewrite E in *.
  destruct (pieces_whole ev r p2 O T L) as (ms' & rest' & -> & D' & _). congruence.
Qed.
Lemma drain_try {A} ev (r : reader A) : reader_ok r -> takes_bytes r -> forall n d, lenN d < size_mod ->
  drain (try_read_message ev r) n d = drain (read_message ev r) n d.
Proof.
  intros O T. induction n as [|n IH]; intros d L; [reflexivity|]. cbn [drain].
  destruct (message_try ev r d O L) as (m & v & v' & E & E' & X). rewrite E, E'. cbn [obind]. destruct m as [a|]; [|reflexivity].
  rewrite X by discriminate. rewrite IH; [reflexivity|]. rewrite lenN_dropN. lia.
Qed.
Lemma pieces_try {A} ev (r : reader A) : reader_ok r -> takes_bytes r -> forall pieces pending, lenN (pending ++ concat pieces) < size_mod ->
  receive_pieces (try_read_message ev r) pending pieces = receive_pieces (read_message ev r) pending pieces.
Proof.
  intros O T. induction pieces as [|c pieces IH]; intros pending L; [reflexivity|]. cbn [receive_pieces concat] in *.
  rewrite app_assoc in L. pose proof L as L'. rewrite lenN_app in L'. rewrite drain_try by (assumption || lia).
  destruct (drain_ok ev r O T (S (length (pending ++ c))) (pending ++ c)) as (ms & rest & D); [lia|lia|]. rewrite D. cbn [obind].
  destruct (drain_rest ev r O T _ (pending ++ c) ms rest ltac:(lia) D) as (_ & (u & U)). rewrite IH; [reflexivity|].
  pose proof (f_equal lenN U) as UN. rewrite (lenN_app u) in UN. rewrite lenN_app. lia.
Qed.

(** ** What is delivered *)
Section Delivered.
Context {A : Type} (ev : env) (r : reader A) (O : reader_ok r) (T : takes_bytes r).
Lemma drain_segments : forall n d ms rest, lenN d < size_mod -> drain (read_message ev r) n d = Ok (ms, rest) ->
  exists segs, Forall2 (is_message ev r) segs ms /\ d = concat segs ++ rest /\ no_message ev r rest.
Proof.
  induction n as [|n IH]; intros d ms rest L E; [discriminate|]. cbn [drain] in E.
  destruct (one ev r O T d L) as [(v & D)|(a & q & D & B)]; rewrite D in E; cbn [obind] in E.
  - injection E as <- <-. exists []. split; [constructor|]. split; [reflexivity|]. exists v. exact D.
  - cbn [rv_pos] in E. destruct (drain (read_message ev r) n (dropN q d)) as [[ms1 rest1]| | | |] eqn:E1; try discriminate.
    cbn [obind] in E. injection E as <- <-. destruct (IH (dropN q d) ms1 rest1) as (segs & F & U & N'); [rewrite lenN_dropN; lia|exact E1|].
    exists (takeN q d :: segs). split; [constructor; [|exact F]|].
    + destruct (message_prefix ev r d a _ q O L D) as (v' & E' & P'). cbn [rv_pos] in *. rewrite (proj2 (N.ltb_ge _ _)) in E' by lia.
      exists v'. split; [exact E'|]. rewrite P' by lia. rewrite lenN_takeN. lia.
    + split; [|exact N']. cbn [concat]. rewrite <- app_assoc, <- U. symmetry. apply takeN_dropN.
Qed.
Lemma segments_drain : forall segs ms rest n, Forall2 (is_message ev r) segs ms -> no_message ev r rest ->
  lenN (concat segs ++ rest) < size_mod -> (length (concat segs ++ rest) < n)%nat ->
  drain (read_message ev r) n (concat segs ++ rest) = Ok (ms, rest).
Proof.
  intros segs ms rest n F (v & N'). revert n. induction F as [|s a segs ms (w & M & P) F IH]; intros n L FU.
  - cbn [concat app] in *. destruct n as [|n]; [lia|]. exact (drain_nothing ev r rest v n N').
  - cbn [concat] in *. rewrite <- app_assoc in *. pose proof L as L'. rewrite lenN_app in L'.
    destruct n as [|n]; [lia|]. cbn [drain].
    destruct (one ev r O T s ltac:(lia)) as [(v' & D)|(a' & q & D & B)]; [congruence|]. rewrite M in D. injection D as -> ->. cbn [rv_pos] in P. subst q.
    unfold rv_init in *. rewrite (read_more ev r O s (concat segs ++ rest) 0 a' (lenN s)) by (assumption || lia). cbn [obind rv_pos].
    rewrite dropN_app_exact by reflexivity. rewrite IH; [reflexivity|lia|]. rewrite app_length in FU. unfold lenN in B. lia.
Qed.
Lemma delivered pieces ms rest : lenN (concat pieces) < size_mod ->
  (receive_pieces (read_message ev r) [] pieces = Ok (ms, rest) <->
   exists segs, Forall2 (is_message ev r) segs ms /\ concat pieces = concat segs ++ rest /\ no_message ev r rest).
Proof.
  intros L. destruct (pieces_whole ev r pieces O T L) as (ms' & rest' & -> & D & _). split.
  - intros E. injection E as -> ->. exact (drain_segments _ _ _ _ L D).
  - intros (segs & F & E & N'). rewrite E in *. rewrite (segments_drain segs ms rest _ F N') in D; [congruence|exact L|lia].
Qed.
Lemma all_delivered pieces : lenN (concat pieces) < size_mod -> exists ms rest, receive_pieces (read_message ev r) [] pieces = Ok (ms, rest).
Proof. intros L. destruct (pieces_whole ev r pieces O T L) as (ms & rest & E & _). eauto. Qed.
End Delivered.
