From Coq Require Import List NArith Lia. Import ListNotations.
From Verif Require Import Base BaseFacts Io_Model Io_Spec Io_PropLemmas IoBool_Model.
Local Open Scope N_scope.

Lemma all_ok_iff ts : forall vs, length vs = length ts ->
  (all_ok ts vs = true <-> Forall2 (fun t v => rep_ok t v = true) ts vs).
Proof.
  induction ts as [|t ts IH]; intros [|v vs] L; try discriminate L; cbn [all_ok].
  - split; [constructor|reflexivity].
  - injection L as L. rewrite andb_true_iff, (IH vs L). split; [intros [A B]; now constructor|intros H; inversion H; auto].
Qed.
Lemma decodes_len ev ts bs vs : decodes ev ts bs vs -> length vs = length ts.
Proof. induction 1; cbn; congruence. Qed.

Lemma map_rt_nil ts : ts <> [] -> map rt ts <> [].
Proof. now destruct ts. Qed.

Lemma read_at_v_exact ev ts pos buf :
  ts <> [] -> Forall vtype_ok (map rt ts) -> pos < size_mod -> types_size (map rt ts) < size_mod -> lenN buf < size_mod ->
  let n := types_size (map rt ts) in
  if size_mod <=? pos + n then read_at_v ev ts pos buf = Throw invalid_argument
  else if lenN buf <? pos + n then read_at_v ev ts pos buf = Throw out_of_range
  else exists vs, decodes ev (map rt ts) (slice buf pos n) vs /\
       (Forall2 (fun t v => rep_ok t v = true) ts vs -> read_at_v ev ts pos buf = Ok vs) /\
       (~ Forall2 (fun t v => rep_ok t v = true) ts vs -> read_at_v ev ts pos buf = UB).
Proof.
  intros NE OK P T L n. unfold read_at_v. pose proof (read_at_exact ev (map rt ts) pos buf (map_rt_nil _ NE) OK P T L) as R.
  fold n in R. destruct (size_mod <=? pos + n); [now rewrite R|]. destruct (lenN buf <? pos + n); [now rewrite R|].
  destruct R as (vs & R & D). exists vs. split; [exact D|]. rewrite R. cbn [obind].
  pose proof (decodes_len _ _ _ _ D) as LL. rewrite map_length in LL. pose proof (all_ok_iff ts vs LL) as I.
  destruct (all_ok ts vs); (split; [|intros H]); try reflexivity; intuition congruence.
Qed.

Lemma read_v_exact ev ts buf :
  ts <> [] -> Forall vtype_ok (map rt ts) -> types_size (map rt ts) < size_mod ->
  let n := types_size (map rt ts) in
  if lenN buf <? n then read_v ev ts buf = Throw out_of_range
  else exists vs, decodes ev (map rt ts) (slice buf 0 n) vs /\
       (Forall2 (fun t v => rep_ok t v = true) ts vs -> read_v ev ts buf = Ok vs) /\
       (~ Forall2 (fun t v => rep_ok t v = true) ts vs -> read_v ev ts buf = UB).
Proof.
  intros NE OK T n. unfold read_v. pose proof (read_exact ev (map rt ts) buf (map_rt_nil _ NE) OK T) as R.
  fold n in R. destruct (lenN buf <? n); [now rewrite R|].
  destruct R as (vs & R & D). exists vs. split; [exact D|]. rewrite R. cbn [obind].
  pose proof (decodes_len _ _ _ _ D) as LL. rewrite map_length in LL. pose proof (all_ok_iff ts vs LL) as I.
  destruct (all_ok ts vs); (split; [|intros H]); try reflexivity; intuition congruence.
Qed.

Lemma F2_len {A B} (P : A -> B -> Prop) l l' : Forall2 P l l' -> length l' = length l.
Proof. induction 1; cbn; congruence. Qed.

Lemma roundtrip_v ev ts vs pos buf buf' n :
  ts <> [] -> Forall2 (fun t v => typed (rt t) v /\ rep_ok t v = true) ts vs ->
  pos < size_mod -> lenN buf < size_mod -> types_size (map rt ts) < size_mod ->
  write_at ev (map (fun p => AVal (rt (fst p)) (snd p)) (combine ts vs)) pos buf = (buf', Ok n) ->
  read_at_v ev ts pos buf' = Ok vs.
Proof.
  intros NE F P L T W. assert (FT : Forall2 typed (map rt ts) vs) by (clear - F; induction F as [|? ? ? ? [? ?]]; constructor; auto).
  assert (FO : all_ok ts vs = true).
  { apply all_ok_iff; [exact (F2_len _ _ _ F)|]. clear - F. induction F as [|? ? ? ? [? ?]]; constructor; auto. }
  assert (E : map (fun p => AVal (rt (fst p)) (snd p)) (combine ts vs) = map (fun p => AVal (fst p) (snd p)) (combine (map rt ts) vs)).
  { clear. revert vs. induction ts as [|t ts IH]; intros [|v vs]; cbn; congruence. }
  rewrite E in W. destruct (write_read_roundtrip ev (map rt ts) vs pos buf buf' n (map_rt_nil _ NE) FT P L T W) as [R _].
  unfold read_at_v. rewrite R. cbn [obind]. now rewrite FO.
Qed.

Lemma try_v_agrees ev t buf : vtype_ok (rt t) -> value_size (rt t) < size_mod ->
  (forall v, try_read1_v ev t buf = Ok (RVal v) <-> read_v ev [t] buf = Ok [v]) /\
  (try_read1_v ev t buf = UB <-> read_v ev [t] buf = UB) /\
  (try_read1_v ev t buf = Ok (RErr rd_insufficient_buffer) <-> read_v ev [t] buf = Throw out_of_range).
Proof.
  intros O S0. destruct (try_read_agrees ev (rt t) buf O S0) as (V & E & r & R & N1 & N2).
  unfold try_read1_v, read_v. cbn [map]. rewrite R. cbn [obind]. destruct r as [v|e].
  - rewrite (proj1 (V v) R). cbn [obind all_ok]. rewrite andb_true_r. destruct (rep_ok t v); repeat split; intros; congruence.
  - destruct e; [|congruence|congruence]. rewrite (proj1 E R). cbn [obind]. repeat split; intros; congruence.
Qed.
Lemma try_at_v_agrees ev t pos buf : vtype_ok (rt t) -> value_size (rt t) < size_mod -> pos < size_mod -> lenN buf < size_mod ->
  (forall v, try_read_at1_v ev t pos buf = Ok (RVal v) <-> read_at_v ev [t] pos buf = Ok [v]) /\
  (try_read_at1_v ev t pos buf = UB <-> read_at_v ev [t] pos buf = UB) /\
  (try_read_at1_v ev t pos buf = Ok (RErr rd_insufficient_buffer) <-> read_at_v ev [t] pos buf = Throw out_of_range) /\
  (try_read_at1_v ev t pos buf = Ok (RErr rd_invalid_position_offset) <-> read_at_v ev [t] pos buf = Throw invalid_argument).
Proof.
  intros O S0 P L. destruct (try_read_at_agrees ev (rt t) pos buf O S0 P L) as (V & I & E & r & R & N1).
  unfold try_read_at1_v, read_at_v. cbn [map]. rewrite R. cbn [obind]. destruct r as [v|e].
  - rewrite (proj1 (V v) R). cbn [obind all_ok]. rewrite andb_true_r. destruct (rep_ok t v); repeat split; intros; congruence.
  - destruct e; [| |congruence].
    + rewrite (proj1 E R). cbn [obind]. repeat split; intros; congruence.
    + rewrite (proj1 I R). cbn [obind]. repeat split; intros; congruence.
Qed.

Lemma bool_read ev b rest : read_v ev [bool_type] (b :: rest) =
  if Byte.eqb b x00 then Ok [bool_value false] else if Byte.eqb b x01 then Ok [bool_value true] else UB.
Proof.
  assert (R : read ev [TPlain (SPod 1)] (b :: rest) = Ok [VPod [b]]).
  { unfold read. assert (C : byte_count_ty [TPlain (SPod 1)] = 1) by reflexivity. rewrite C.
    rewrite lenN_cons. rewrite (proj2 (N.ltb_ge _ _)) by lia. cbn [recursive_read]. unfold unchecked_read, load, advance.
    change (value_size (TPlain (SPod 1))) with 1. rewrite lenN_cons. rewrite !(proj2 (N.leb_le _ _)) by lia. reflexivity. }
  unfold read_v. change (map rt [bool_type]) with [TPlain (SPod 1)]. rewrite R. cbn [obind].
  destruct b; reflexivity.
Qed.

Lemma bool_refuted : exists buf, lenN buf = 1 /\ forall ev,
  read_v ev [bool_type] buf = UB /\ try_read1_v ev bool_type buf = UB /\ try_read_at1_v ev bool_type 0 buf = UB.
Proof.
  exists [x02]. split; [reflexivity|]. intros ev. assert (R : read_v ev [bool_type] [x02] = UB) by (rewrite bool_read; reflexivity).
  assert (Z : vtype_ok (rt bool_type)) by (unfold vtype_ok; cbn; lia).
  split; [exact R|]. split; [apply try_v_agrees; [exact Z|reflexivity|exact R]|].
  apply try_at_v_agrees; [exact Z|reflexivity|reflexivity|reflexivity|].
  pose proof (read_at_v_exact ev [bool_type] 0 [x02] ltac:(discriminate) ltac:(repeat constructor) ltac:(reflexivity) ltac:(reflexivity) ltac:(reflexivity)) as E.
  cbv zeta in E. change (types_size (map rt [bool_type])) with 1 in E. change (size_mod <=? 0 + 1) with false in E.
  change (lenN [x02] <? 0 + 1) with false in E. cbv iota in E. destruct E as (vs & D & _ & F). apply F. intros F2.
  change (slice [x02] 0 1) with [x02] in D. change (map rt [bool_type]) with [TPlain (SPod 1)] in D.
  pose proof (decoding_unique ev [TPlain (SPod 1)] [x02] vs [VPod [x02]] D) as U.
  rewrite U in F2 by (apply (decodes_cons ev (TPlain (SPod 1)) [] [x02] [] (VPod [x02]) []); [split; [lia|reflexivity]|reflexivity|constructor]).
  inversion F2 as [|? ? ? ? K _]. discriminate K.
Qed.
