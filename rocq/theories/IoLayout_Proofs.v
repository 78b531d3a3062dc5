From Coq Require Import Permutation.
From Verif Require Import Base BaseFacts Io_Model Io_Spec Io_Proofs IoRead_Proofs IoLayout_Spec.

Definition fbytes (ev : env) (f : field) : list byte := enc_args ev (map (fun x => AVal (fst x) (snd x)) (snd f)).

Lemma field_args_ok f len : field_ok len f -> Forall arg_ok (map (fun x => AVal (fst x) (snd x)) (snd f)).
Proof. intros (_ & H & _). rewrite Forall_map. exact H. Qed.
Lemma field_args_size (f : field) : args_size (map (fun x => AVal (fst x) (snd x)) (snd f)) = field_size f.
Proof. unfold args_size, field_size, types_size, field_types. rewrite !map_map. reflexivity. Qed.
Lemma lenN_fbytes ev f len : field_ok len f -> lenN (fbytes ev f) = field_size f.
Proof. intros H. unfold fbytes. rewrite lenN_enc_args by (eapply field_args_ok; eauto). apply field_args_size. Qed.
Lemma write_field ev f buf : lenN buf < size_mod -> field_ok (lenN buf) f ->
  write_at ev (map (fun x => AVal (fst x) (snd x)) (snd f)) (fst f) buf = (splice buf (fst f) (fbytes ev f), Ok (fst f + field_size f)).
Proof.
  intros Hl H. pose proof (proj2 (proj2 H)) as Hs. rewrite write_at_char; rewrite ?field_args_size; try lia; [|eapply field_args_ok; eauto].
  rewrite (proj2 (N.leb_gt _ _)) by lia. rewrite (proj2 (N.ltb_ge _ _)) by lia. reflexivity.
Qed.

Lemma splice_comm buf p a q b : p + lenN a <= q \/ q + lenN b <= p -> p + lenN a <= lenN buf -> q + lenN b <= lenN buf ->
  splice (splice buf p a) q b = splice (splice buf q b) p a.
Proof.
  intros D A B. apply nth_error_ext. intros i.
  assert (A' : p + lenN a <= lenN (splice buf q b)) by (rewrite lenN_splice; lia).
  assert (B' : q + lenN b <= lenN (splice buf p a)) by (rewrite lenN_splice; lia).
  rewrite (proj2 (splice_overwritten _ _ _ B')), (proj2 (splice_overwritten _ _ _ A')).
  rewrite (proj2 (splice_overwritten _ _ _ B)), (proj2 (splice_overwritten _ _ _ A)).
  destruct (N.ltb_spec (N.of_nat i) p), (N.leb_spec (p + lenN a) (N.of_nat i)),
    (N.ltb_spec (N.of_nat i) q), (N.leb_spec (q + lenN b) (N.of_nat i)); cbn [orb]; try reflexivity; lia.
Qed.

Definition splices (ev : env) (fs : list field) (buf : list byte) : list byte :=
  fold_left (fun b f => splice b (fst f) (fbytes ev f)) fs buf.

Lemma lenN_splices ev fs : forall buf, Forall (field_ok (lenN buf)) fs -> lenN (splices ev fs buf) = lenN buf.
Proof.
  induction fs as [|f r IH]; intros buf H; [reflexivity|]. inversion H as [|? ? Hf Hr]; subst. unfold splices. cbn [fold_left].
  change (lenN (splices ev r (splice buf (fst f) (fbytes ev f))) = lenN buf).
  assert (E : lenN (splice buf (fst f) (fbytes ev f)) = lenN buf).
  { apply lenN_splice. rewrite (lenN_fbytes ev f _ Hf). exact (proj2 (proj2 Hf)). }
  rewrite IH by (rewrite E; exact Hr). exact E.
Qed.

Lemma write_fields_splices ev fs : forall buf, lenN buf < size_mod -> Forall (field_ok (lenN buf)) fs ->
  write_fields ev fs buf = Some (splices ev fs buf).
Proof.
  induction fs as [|[p tvs] r IH]; intros buf Hl H; [reflexivity|]. inversion H as [|? ? Hf Hr]; subst. cbn [write_fields].
  rewrite (write_field ev (p, tvs) buf Hl Hf : write_at ev (map _ tvs) p buf = _).
  assert (E : lenN (splice buf p (fbytes ev (p, tvs))) = lenN buf).
  { apply lenN_splice. rewrite (lenN_fbytes ev _ _ Hf). exact (proj2 (proj2 Hf)). }
  cbn [fst]. rewrite IH by (rewrite E; assumption). reflexivity.
Qed.

Lemma apart_sym f g : apart f g -> apart g f. Proof. unfold apart. tauto. Qed.

Lemma FOP_perm (fs gs : list field) : Permutation fs gs -> ForallOrdPairs apart fs -> ForallOrdPairs apart gs.
Proof.
  induction 1 as [|x l l' P IH|x y l|l l' l'' P1 IH1 P2 IH2]; intros H.
  - exact H.
  - inversion H; subst. constructor; [|auto]. eapply Permutation_Forall; eauto.
  - inversion H as [|? ? A B]; subst. inversion B as [|? ? C D]; subst. inversion A as [|? ? A1 A2]; subst.
    constructor; [constructor; [now apply apart_sym|exact C]|constructor; assumption].
  - auto.
Qed.

Lemma splices_perm ev fs gs : Permutation fs gs -> forall buf, Forall (field_ok (lenN buf)) fs -> ForallOrdPairs apart fs ->
  splices ev fs buf = splices ev gs buf.
Proof.
  induction 1 as [|x l l' P IH|x y l|l l' l'' P1 IH1 P2 IH2]; intros buf H D.
  - reflexivity.
  - inversion H as [|? ? Hf Hr]; subst. inversion D; subst. unfold splices. cbn [fold_left]. apply IH; [|assumption].
    rewrite lenN_splice; [assumption|]. rewrite (lenN_fbytes ev x _ Hf). exact (proj2 (proj2 Hf)).
  - inversion H as [|? ? Hy Hr]; subst. inversion Hr as [|? ? Hx Hr']; subst.
    inversion D as [|? ? A B]; subst. inversion A as [|? ? A1 A2]; subst. unfold splices. cbn [fold_left]. f_equal.
    apply splice_comm; rewrite ?(lenN_fbytes ev x _ Hx), ?(lenN_fbytes ev y _ Hy).
    + exact A1. + exact (proj2 (proj2 Hy)). + exact (proj2 (proj2 Hx)).
  - rewrite IH1 by assumption. apply IH2; [eapply Permutation_Forall; eauto|eapply FOP_perm; eauto].
Qed.

Lemma splices_frame ev fs i : forall buf, Forall (field_ok (lenN buf)) fs -> Forall (fun f => ~ covers f i) fs ->
  nth_error (splices ev fs buf) i = nth_error buf i.
Proof.
  induction fs as [|f r IH]; intros buf H N; [reflexivity|]. inversion H as [|? ? Hf Hr]; subst. inversion N as [|? ? Nf Nr]; subst.
  pose proof (proj2 (proj2 Hf)) as Hs. pose proof (lenN_fbytes ev f _ Hf) as Hb.
  unfold splices. cbn [fold_left]. change (nth_error (splices ev r (splice buf (fst f) (fbytes ev f))) i = nth_error buf i).
  rewrite IH; [|rewrite lenN_splice by lia; exact Hr|exact Nr].
  rewrite (proj2 (splice_overwritten _ _ _ (ltac:(lia) : fst f + lenN (fbytes ev f) <= lenN buf))).
  unfold covers in Nf. destruct (N.ltb_spec (N.of_nat i) (fst f)); [reflexivity|].
  destruct (N.leb_spec (fst f + lenN (fbytes ev f)) (N.of_nat i)); [reflexivity|]. lia.
Qed.

Lemma splices_read ev fs f : forall buf, lenN buf < size_mod -> Forall (field_ok (lenN buf)) fs -> ForallOrdPairs apart fs -> In f fs ->
  read_at ev (field_types f) (fst f) (splices ev fs buf) = Ok (field_values f).
Proof.
  intros buf Hl H D I. destruct (in_split f fs I) as (a & b & E).
  assert (P : Permutation fs ((a ++ b) ++ [f])).
  { subst fs. rewrite <- app_assoc. apply Permutation_app_head. apply Permutation_cons_append. }
  rewrite (splices_perm ev _ _ P buf H D). unfold splices. rewrite fold_left_app. cbn [fold_left].
  fold (splices ev (a ++ b) buf). set (m := splices ev (a ++ b) buf).
  assert (Hf : field_ok (lenN buf) f) by (eapply Forall_forall; eauto).
  assert (Em : lenN m = lenN buf).
  { apply lenN_splices. apply (Permutation_Forall P) in H. apply Forall_app in H. apply H. }
  rewrite <- Em in Hf, Hl. pose proof (write_field ev f m Hl Hf) as W.
  assert (T : Forall2 typed (field_types f) (field_values f)).
  { destruct Hf as (_ & T & _). unfold field_types, field_values. clear - T. induction (snd f) as [|x r IH]; [constructor|].
    inversion T; subst. cbn. constructor; auto. }
  assert (Ea : map (fun x => AVal (fst x) (snd x)) (snd f) = args_of (field_types f) (field_values f)).
  { unfold args_of, field_types, field_values. clear. induction (snd f) as [|x r IH]; [reflexivity|]. cbn. now rewrite IH. }
  rewrite Ea in W. pose proof (proj2 (proj2 Hf)) as Hs. unfold field_size in Hs.
  apply (write_at_read_at ev _ _ (fst f) m _ _ T ltac:(lia) ltac:(lia) ltac:(lia) W).
Qed.

Lemma layout ev buf fs : lenN buf < size_mod -> Forall (field_ok (lenN buf)) fs -> ForallOrdPairs apart fs ->
  exists buf', (forall gs, Permutation fs gs -> write_fields ev gs buf = Some buf') /\
    length buf' = length buf /\
    (forall f, In f fs -> read_at ev (field_types f) (fst f) buf' = Ok (field_values f)) /\
    (forall i, (forall f, In f fs -> ~ covers f i) -> nth_error buf' i = nth_error buf i).
Proof.
  intros Hl H D. exists (splices ev fs buf). split; [|split; [|split]].
  - intros gs P. rewrite write_fields_splices; [|exact Hl|eapply Permutation_Forall; eauto]. f_equal. symmetry. now apply splices_perm.
  - pose proof (lenN_splices ev fs buf H) as E. unfold lenN in E. lia.
  - intros f I. now apply splices_read.
  - intros i N. apply splices_frame; [exact H|]. apply Forall_forall. exact N.
Qed.

Lemma layout_update ev buf f g fs : lenN buf < size_mod -> Forall (field_ok (lenN buf)) (f :: g :: fs) ->
  fst g = fst f -> field_size g = field_size f -> ForallOrdPairs apart (f :: fs) ->
  write_fields ev (f :: fs ++ [g]) buf = write_fields ev (g :: fs) buf.
Proof.
  intros Hl H Ep Es D. inversion H as [|? ? Hf Hr]; subst. inversion Hr as [|? ? Hg Hfs]; subst.
  rewrite (write_fields_splices ev (g :: fs)); [|exact Hl|constructor; assumption].
  rewrite write_fields_splices; [|exact Hl|constructor; [assumption|apply Forall_app; split; [assumption|repeat constructor; apply Hg]]].
  f_equal. inversion D as [|? ? A B]; subst.
  pose proof (lenN_fbytes ev f _ Hf) as Lf. pose proof (lenN_fbytes ev g _ Hg) as Lg. pose proof (proj2 (proj2 Hf)) as Sf.
  unfold splices. cbn [fold_left]. 
  assert (Ef : lenN (splice buf (fst f) (fbytes ev f)) = lenN buf) by (apply lenN_splice; lia).
  change (splices ev (fs ++ [g]) (splice buf (fst f) (fbytes ev f)) = splices ev fs (splice buf (fst g) (fbytes ev g))).
  rewrite (splices_perm ev (fs ++ [g]) (g :: fs)).
  - unfold splices. cbn [fold_left]. f_equal. rewrite Ep. apply nth_error_ext. intros i.
    rewrite (proj2 (splice_overwritten (splice buf (fst f) (fbytes ev f)) (fst f) (fbytes ev g) ltac:(lia))).
    rewrite (proj2 (splice_overwritten buf (fst f) (fbytes ev g) ltac:(lia))).
    rewrite (proj2 (splice_overwritten buf (fst f) (fbytes ev f) ltac:(lia))). rewrite Lf, Lg, Es.
    destruct ((N.of_nat i <? fst f) || (fst f + field_size f <=? N.of_nat i)); reflexivity.
  - apply Permutation_sym, Permutation_cons_append.
  - rewrite Ef. apply Forall_app. split; [exact Hfs|repeat constructor; apply Hg].
  - apply (FOP_perm (g :: fs)); [apply Permutation_cons_append|]. constructor; [|exact B].
    eapply Forall_impl; [|exact A]. intros h. unfold apart. rewrite Ep, Es. tauto.
Qed.

Lemma frame_read ev buf args bs pos buf' n ts q : lenN buf < size_mod -> Forall arg_ok args -> args_encoding ev args bs ->
  pos < size_mod -> lenN bs < size_mod -> Forall vtype_ok ts -> q < size_mod -> types_size ts < size_mod ->
  write_at ev args pos buf = (buf', Ok n) -> q + types_size ts <= pos \/ pos + lenN bs <= q ->
  read_at ev ts q buf' = read_at ev ts q buf.
Proof.
  intros Hl Ha He Hp Hs Ht Hq Hts W D.
  apply args_encoding_eq in He; [|exact Ha]. subst bs.
  rewrite lenN_enc_args in * by assumption. rewrite write_at_char in W by assumption.
  destruct (N.leb_spec size_mod (pos + args_size args)); [discriminate|].
  destruct (N.ltb_spec (lenN buf) (pos + args_size args)); [discriminate|]. injection W as <- _.
  pose proof (lenN_enc_args ev args Ha) as L.
  rewrite !read_at_char by (rewrite ?lenN_splice; lia). rewrite lenN_splice by lia.
  destruct (size_mod <=? q + types_size ts); [reflexivity|]. destruct (N.ltb_spec (lenN buf) (q + types_size ts)); [reflexivity|].
  f_equal. rewrite decode_all_take by (rewrite lenN_dropN, lenN_splice; lia).
  rewrite (decode_all_take ev ts (dropN q buf)) by (rewrite lenN_dropN; lia). f_equal.
  apply nth_error_ext. intros i. rewrite !nth_error_takeN. destruct (N.ltb_spec (N.of_nat i) (types_size ts)); [|reflexivity].
  rewrite !nth_error_dropN.
  rewrite (proj2 (splice_overwritten buf pos (enc_args ev args) ltac:(lia))). rewrite L.
  destruct (N.ltb_spec (N.of_nat (N.to_nat q + i)) pos); [reflexivity|].
  rewrite (proj2 (N.leb_le _ _)) by lia. reflexivity.
Qed.
