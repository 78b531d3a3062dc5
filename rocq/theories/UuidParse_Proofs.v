(** Proofs about the UUID parsers of [Uuid_Model]. *)
From Verif Require Import Base BaseFacts Io_Model Hex_Model Hex_Spec Hex_Proofs Uuid_Model Uuid_Spec Uuid_Proofs.
From Coq Require Import Ascii String List. Import ListNotations.
Open Scope N_scope. Open Scope list_scope.

Definition hexb (c : N) : bool := match hex_value c with Some _ => true | None => false end.
Lemma hexb_iff c : hexb c = true <-> is_hex c.
Proof. unfold hexb, is_hex. destruct (hex_value c); split; congruence. Qed.

Lemma latin1_checkable w s : latin1 s -> checkable w s.
Proof. apply Forall_impl. auto. Qed.
Lemma isxdigit_checkable w c : c < 256 \/ (w = wide /\ c = 0xFFFFFFFF) -> c_isxdigit w c = Ok (hexb c).
Proof.
  intros [H|[-> ->]]; [|reflexivity]. unfold c_isxdigit. rewrite (proj2 (N.ltb_lt _ _) H). cbn [orb]. f_equal.
  pose proof (valid_char narrow c) as V. rewrite <- hexb_iff in V. 
  change (existsb (N.eqb c) (codes "0123456789ABCDEFabcdef")) with (existsb (N.eqb c) valid_hex_chars).
  destruct (existsb (N.eqb c) valid_hex_chars), (hexb c); intuition congruence.
Qed.

Lemma put_zero pre k c : (0 < k)%nat -> put (pre ++ repeat 0 k) (lenN pre) c = Ok ((pre ++ [c]) ++ repeat 0 (k - 1)).
Proof.
  intros K. destruct k; [lia|]. cbn [repeat]. rewrite put_app, <- app_assoc.
  replace (S k - 1)%nat with k by lia. reflexivity.
Qed.
Lemma put_full pre c : put (pre ++ repeat 0 0) (lenN pre) c = UB.
Proof. unfold put. cbn [repeat]. rewrite app_nil_r, N.ltb_irrefl. reflexivity. Qed.

Lemma copy_hex_char w : forall s pre k, checkable w s ->
  copy_hex w s (pre ++ repeat 0 k) (lenN pre) =
    let ds := filter hexb s in
    if (length ds <=? k)%nat then Ok (pre ++ ds ++ repeat 0 (k - length ds)) else UB.
Proof.
  induction s as [|c r IH]; intros pre k H.
  - cbn [copy_hex filter]. cbn [length Nat.leb app]. now rewrite Nat.sub_0_r.
  - inversion H as [|? ? Hc Hr]; subst. cbn [copy_hex]. rewrite isxdigit_checkable by assumption.
    cbn [obind]. cbv zeta. change (filter hexb (c :: r)) with (if hexb c then c :: filter hexb r else filter hexb r).
    destruct (hexb c).
    + destruct k as [|k].
      * rewrite put_full. cbn [obind length Nat.leb]. reflexivity.
      * rewrite put_zero by lia. cbn [obind].
        replace (lenN pre + 1) with (lenN (pre ++ [c])) by (rewrite lenN_app; reflexivity).
        rewrite IH by assumption. cbv zeta. cbn [length Nat.leb Nat.sub]. rewrite Nat.sub_0_r.
        destruct (length (filter hexb r) <=? k)%nat; [|reflexivity]. now rewrite <- app_assoc.
    + rewrite IH by assumption. reflexivity.
Qed.

(** The digits outside "0x" prefixes. *)
Fixpoint xdigits (s : list N) : list N :=
  match s with
  | [] => []
  | c :: r =>
      (if hexb c then match r with
                      | d :: _ => if (c =? 48) && (d =? 120) then [] else [c]
                      | [] => [c]
                      end else []) ++ xdigits r
  end.
Lemma xdigits_count s : lenN (xdigits s) = digit_positions s.
Proof.
  induction s as [|c r IH]; [reflexivity|]. cbn [xdigits digit_positions]. rewrite lenN_app, IH. f_equal.
  unfold hexb. destruct (hex_value c); [|reflexivity]. destruct r; [reflexivity|].
  destruct ((c =? 48) && (n0 =? 120)); reflexivity.
Qed.
Lemma xdigits_hex s : Forall is_hex (xdigits s).
Proof.
  induction s as [|c r IH]; [constructor|]. cbn [xdigits]. apply Forall_app. split; [|assumption].
  destruct (hexb c) eqn:E; [|constructor]. apply hexb_iff in E.
  destruct r; [auto|]. destruct (_ && _); auto.
Qed.

Definition ends_in_0 (s : list N) : bool := match rev s with c :: _ => c =? 48 | [] => false end.
Lemma ends_in_0_cons c d r : ends_in_0 (c :: d :: r) = ends_in_0 (d :: r).
Proof.
  unfold ends_in_0. change (rev (c :: d :: r)) with (rev (d :: r) ++ [c]).
  destruct (rev (d :: r)) eqn:E; [|reflexivity].
  apply (f_equal (@List.length N)) in E. rewrite rev_length in E. discriminate.
Qed.

Lemma remove_0x_char w : forall n s pre k, (length s <= n)%nat -> checkable w s ->
  remove_0x w s 48 120 (pre ++ repeat 0 k) (lenN pre) =
    if ends_in_0 s then UB
    else if (length (xdigits s) <=? k)%nat
         then Ok (pre ++ xdigits s ++ repeat 0 (k - length (xdigits s))) else UB.
Proof.
  induction n as [|n IH]; intros s pre k L H.
  - destruct s; [|cbn in L; lia]. cbn [remove_0x xdigits length Nat.leb app].
    unfold ends_in_0. cbn [rev]. now rewrite Nat.sub_0_r.
  - destruct s as [|c r]; [cbn [remove_0x xdigits length Nat.leb app]; unfold ends_in_0; cbn [rev]; now rewrite Nat.sub_0_r|].
    inversion H as [|? ? Hc Hr]; subst. cbn [length] in L. cbn [remove_0x].
    assert (step : forall x,
      x = (if hexb c then [c] else []) ->
      (let! y := c_isxdigit w c in
       if negb y then remove_0x w r 48 120 (pre ++ repeat 0 k) (lenN pre)
       else let! out' := put (pre ++ repeat 0 k) (lenN pre) c in
            remove_0x w r 48 120 out' (lenN pre + 1)) =
      if ends_in_0 r then UB
      else if (length (x ++ xdigits r) <=? k)%nat
           then Ok (pre ++ (x ++ xdigits r) ++ repeat 0 (k - length (x ++ xdigits r))) else UB).
    { intros x ->. rewrite isxdigit_checkable by assumption. cbn [obind].
      destruct (hexb c); cbn [negb].
      - destruct k as [|k].
        + rewrite put_full. cbn [obind app length Nat.leb]. now destruct (ends_in_0 r).
        + rewrite put_zero by lia. cbn [obind].
          replace (lenN pre + 1) with (lenN (pre ++ [c])) by (rewrite lenN_app; reflexivity).
          rewrite IH by (try assumption; lia). cbn [app length Nat.leb Nat.sub]. rewrite Nat.sub_0_r.
          destruct (ends_in_0 r); [reflexivity|].
          destruct (length (xdigits r) <=? k)%nat; [|reflexivity]. now rewrite <- app_assoc.
      - rewrite IH by (try assumption; lia). reflexivity. }
    destruct (N.eqb_spec c 48) as [->|Nc].
    + destruct r as [|d r']; [reflexivity|].
      rewrite ends_in_0_cons. cbn [obind].
      change (xdigits (48 :: d :: r')) with
        ((if (48 =? 48) && (d =? 120) then [] else [48]) ++ xdigits (d :: r')).
      destruct (N.eqb_spec d 120) as [->|Nd].
      * cbn [andb N.eqb Pos.eqb app]. cbn [length] in L. inversion Hr; subst.
        rewrite IH by (try assumption; lia).
        change (xdigits (120 :: r')) with (xdigits r').
        destruct r'; [reflexivity|]. now rewrite ends_in_0_cons.
      * cbn [andb N.eqb Pos.eqb]. rewrite (step [48]) by reflexivity. reflexivity.
    + cbn [obind].
      rewrite (step (if hexb c then [c] else [])) by reflexivity.
      cbn [xdigits].
      replace (if hexb c then match r with | d :: _ => if (c =? 48) && (d =? 120) then [] else [c] | [] => [c] end else [])
        with (if hexb c then [c] else []).
      2:{ destruct (hexb c); [|reflexivity]. rewrite (proj2 (N.eqb_neq _ _) Nc). now destruct r. }
      destruct r; [|now rewrite ends_in_0_cons].
      unfold ends_in_0; cbn [rev app]. now rewrite (proj2 (N.eqb_neq _ _) Nc).
Qed.

Lemma used_length_digits ds k : Forall (fun c => c <> 0) ds -> used_length (ds ++ repeat 0 k) = lenN ds.
Proof.
  intros H. induction H as [|c r Hc Hr IH].
  - cbn [app]. induction k; [reflexivity|]. cbn [repeat used_length]. rewrite IHk. reflexivity.
  - cbn [app used_length]. rewrite IH, (proj2 (N.eqb_neq _ _) Hc), andb_false_r, lenN_cons. lia.
Qed.

Lemma hex_Forall_nonzero ds : Forall is_hex ds -> Forall (fun c => c <> 0) ds.
Proof. apply Forall_impl. intros; now apply hex_nonzero. Qed.

Lemma c_str_tail s after : Forall (fun c => c <> 0) s -> In 0 after ->
  exists t, c_str (s ++ after) = Ok (s ++ t).
Proof.
  intros H I. induction H as [|c s Hc Hs [t IH]].
  - cbn [app]. induction after as [|c r IH]; [destruct I|]. cbn [c_str].
    destruct (N.eqb_spec c 0); [now exists []|]. destruct I as [->|I]; [congruence|].
    destruct (IH I) as [t ->]. now exists (c :: t).
  - exists t. cbn [app c_str]. rewrite (proj2 (N.eqb_neq _ _) Hc), IH. reflexivity.
Qed.

Lemma c_str_none s : Forall (fun c => c <> 0) s -> c_str s = UB.
Proof.
  induction 1 as [|c s Hc Hs IH]; [reflexivity|]. cbn [c_str].
  now rewrite (proj2 (N.eqb_neq _ _) Hc), IH.
Qed.

Lemma from_digits w after ds : In 0 after -> length ds = 32%nat -> Forall is_hex ds ->
  unsafe_uuid_from_digits w after ds = Ok (format_as_uuid_data (decode ds)).
Proof.
  intros I L F. unfold unsafe_uuid_from_digits.
  destruct (c_str_tail ds after (hex_Forall_nonzero _ F) I) as [t ->]. cbn [obind].
  pose proof (unsafe_unhexlify_loop_ok w ds 16 [] L F t) as X. cbn [app] in X.
  unfold unsafe_unhexlify. change 0 with (lenN (@nil N)). rewrite X. reflexivity.
Qed.

Lemma from_digits_standard w ds : length ds = 32%nat -> Forall is_hex ds ->
  unsafe_uuid_from_digits w [] ds = UB.
Proof.
  intros L F. unfold unsafe_uuid_from_digits. rewrite app_nil_r, c_str_none; auto using hex_Forall_nonzero.
Qed.

Lemma format_text_order a : length a = 16%nat -> is_uuid (format_as_uuid_data a) /\ text_order (format_as_uuid_data a) = a.
Proof. intros L. uuid_cases a L. split; reflexivity. Qed.

Lemma from_digits_text_of f ds : length ds = 32%nat -> Forall is_hex ds ->
  text_of f (layout f ds) (format_as_uuid_data (decode ds)).
Proof.
  intros L F. destruct (format_text_order (decode ds)) as [A B].
  { rewrite decode_length, L. reflexivity. }
  split; [assumption|]. exists ds. split; [reflexivity|]. rewrite B. now apply (decode_denotes ds 16).
Qed.

Lemma text_of_decode f ds u : length ds = 32%nat -> text_of f (layout f ds) u ->
  u = format_as_uuid_data (decode ds) /\ Forall is_hex ds.
Proof.
  intros L (U & es & E & D).
  assert (L' : length es = 32%nat).
  { destruct D as [D _]. rewrite D. uuid_cases u U. reflexivity. }
  apply layout_inj in E; auto. subst es. apply denotes_decode in D. destruct D as [D F].
  split; [|assumption]. apply text_order_inj; auto.
  - destruct (format_text_order (decode ds)); [rewrite decode_length, L; reflexivity|assumption].
  - destruct (format_text_order (decode ds)) as [_ ->]; [rewrite decode_length, L; reflexivity|congruence].
Qed.

Lemma text_of_well_formed f s : well_formed f s <-> exists u, text_of f s u.
Proof.
  split.
  - intros (ds & -> & L & F). eexists. now apply from_digits_text_of.
  - intros (u & U & ds & -> & D). exists ds. split; [reflexivity|]. 
    pose proof (denotes_decode _ _ D) as [_ F]. destruct D as [D _]. split; [|assumption].
    rewrite D. uuid_cases u U. reflexivity.
Qed.

(** ** N, D, B, P *)
Lemma filter_le (s : list N) : (length (filter hexb s) <= length s)%nat.
Proof. induction s as [|c r]; [reflexivity|]. cbn [filter]. destruct (hexb c); cbn [length]; lia. Qed.
Lemma filter_all s : Forall is_hex s -> filter hexb s = s.
Proof.
  induction 1 as [|c r Hc Hr IH]; [reflexivity|]. cbn [filter].
  rewrite (proj2 (hexb_iff c) Hc). now rewrite IH.
Qed.
Lemma filter_full s : length (filter hexb s) = length s -> Forall is_hex s.
Proof.
  induction s as [|c r IH]; intros H; [constructor|]. cbn [filter] in H. pose proof (filter_le r).
  destruct (hexb c) eqn:E; cbn [length] in H.
  - constructor; [now apply hexb_iff|apply IH; lia].
  - lia.
Qed.
Lemma filter_layout f ds : f <> FX -> length ds = 32%nat -> filter hexb (layout f ds) = filter hexb ds.
Proof.
  intros NX L. assert (E : ds = part ds 0 8 ++ part ds 8 4 ++ part ds 12 4 ++ part ds 16 4 ++ part ds 20 12).
  { cases32 ds L. reflexivity. }
  assert (D : filter hexb (dashed ds) = filter hexb ds).
  { rewrite (f_equal (filter hexb) E). unfold dashed. rewrite !filter_app. reflexivity. }
  destruct f; try congruence; cbn [layout]; rewrite ?filter_app, ?D;
    change (filter hexb (txt "{")) with (@nil N); change (filter hexb (txt "}")) with (@nil N);
    change (filter hexb (txt "(")) with (@nil N); change (filter hexb (txt ")")) with (@nil N);
    rewrite ?app_nil_r; reflexivity.
Qed.

Tactic Notation "ncases" integer(n) hyp(s) hyp(L) := do n (destruct s as [|? s]; [discriminate L|]); destruct s; [clear L|discriminate L].

Lemma valid_layout f ds : length ds = 32%nat ->
  is_a_valid_uuid_string (the_fmt true f) (layout f ds) = Ok true.
Proof. intros L. cases32 ds L. destruct f; reflexivity. Qed.

Lemma delim_step s v p r : any_bad_delimiter s ((v, p) :: r) = Ok false ->
  deref s p = Ok v /\ any_bad_delimiter s r = Ok false.
Proof.
  cbn [any_bad_delimiter]. destruct (deref s p); cbn [obind]; try discriminate.
  destruct (N.eqb_spec v a); cbn [negb]; [|discriminate]. subst; auto.
Qed.

Lemma valid_inv f s : is_a_valid_uuid_string f s = Ok true ->
  lenN s = f_size f /\ exists a b, deref s 0 = Ok a /\ deref s (lenN s - 1) = Ok b /\
    is_opening f a = true /\ is_closing f b = true /\ any_bad_delimiter s (f_delims f) = Ok false.
Proof.
  unfold is_a_valid_uuid_string. destruct (N.eqb_spec (lenN s) (f_size f)); cbn [negb]; [|discriminate].
  destruct (deref s 0) as [a| | | |]; cbn [obind]; try discriminate.
  destruct (deref s (lenN s - 1)) as [b| | | |]; cbn [obind]; try discriminate.
  destruct (is_opening f a) eqn:A; cbn [negb orb]; [|discriminate].
  destruct (is_closing f b) eqn:B; cbn [negb]; [|discriminate].
  destruct (any_bad_delimiter s (f_delims f)) as [[]| | | |]; cbn [obind negb]; try discriminate.
  intros _. split; [assumption|]. exists a, b. auto.
Qed.

Lemma deref_inv (s : list N) p c : deref s p = Ok c -> nth_error s (N.to_nat p) = Some c.
Proof. unfold deref. destruct (nth_error s (N.to_nat p)); congruence. Qed.

Lemma valid_is_layout f s : f <> FX -> is_a_valid_uuid_string (the_fmt true f) s = Ok true ->
  exists ds, length ds = 32%nat /\ s = layout f ds.
Proof.
  intros NX V. apply valid_inv in V. destruct V as (L & a & b & A & B & O & C & D).
  rewrite the_fmt_size in L. rewrite L in B.
  assert (LN : length s = N.to_nat (format_length f)) by (unfold lenN in L; lia).
  destruct f; [| | | |congruence].
  - exists s. split; [exact LN|reflexivity].
  - cbn [the_fmt fmt_D fmt_B fmt_P f_delims dash map] in D.
    repeat (apply delim_step in D; let X := fresh in destruct D as [X D]; apply deref_inv in X).
    change (length s = 36%nat) in LN. ncases 36 s LN.
    repeat match goal with H : nth_error _ _ = Some _ |- _ => cbn in H; injection H as -> end.
    match goal with |- exists ds, _ /\ [?c0;?c1;?c2;?c3;?c4;?c5;?c6;?c7;_;?c9;?c10;?c11;?c12;_;?c14;?c15;?c16;?c17;_;?c19;?c20;?c21;?c22;_;?c24;?c25;?c26;?c27;?c28;?c29;?c30;?c31;?c32;?c33;?c34;?c35] = _ =>
      exists [c0;c1;c2;c3;c4;c5;c6;c7;c9;c10;c11;c12;c14;c15;c16;c17;c19;c20;c21;c22;c24;c25;c26;c27;c28;c29;c30;c31;c32;c33;c34;c35] end.
    split; reflexivity.
  - cbn [the_fmt fmt_D fmt_B fmt_P f_delims dash map] in D.
    repeat (apply delim_step in D; let X := fresh in destruct D as [X D]; apply deref_inv in X).
    apply deref_inv in A, B.
    change (length s = 38%nat) in LN. ncases 38 s LN.
    cbn in A, B. injection A as <-. injection B as <-.
    unfold is_opening, is_closing in O, C. cbn [the_fmt fmt_B f_open f_close] in O, C.
    apply orb_true_iff in O, C. destruct O as [O|O]; [discriminate|]. destruct C as [C|C]; [discriminate|].
    apply N.eqb_eq in O, C. subst.
    repeat match goal with H : nth_error _ _ = Some _ |- _ => cbn in H; injection H as -> end.
    match goal with |- exists ds, _ /\ [_;?c0;?c1;?c2;?c3;?c4;?c5;?c6;?c7;_;?c9;?c10;?c11;?c12;_;?c14;?c15;?c16;?c17;_;?c19;?c20;?c21;?c22;_;?c24;?c25;?c26;?c27;?c28;?c29;?c30;?c31;?c32;?c33;?c34;?c35;_] = _ =>
      exists [c0;c1;c2;c3;c4;c5;c6;c7;c9;c10;c11;c12;c14;c15;c16;c17;c19;c20;c21;c22;c24;c25;c26;c27;c28;c29;c30;c31;c32;c33;c34;c35] end.
    split; reflexivity.
  - cbn [the_fmt fmt_D fmt_B fmt_P f_delims dash map] in D.
    repeat (apply delim_step in D; let X := fresh in destruct D as [X D]; apply deref_inv in X).
    apply deref_inv in A, B.
    change (length s = 38%nat) in LN. ncases 38 s LN.
    cbn in A, B. injection A as <-. injection B as <-.
    unfold is_opening, is_closing in O, C. cbn [the_fmt fmt_P f_open f_close] in O, C.
    apply orb_true_iff in O, C. destruct O as [O|O]; [discriminate|]. destruct C as [C|C]; [discriminate|].
    apply N.eqb_eq in O, C. subst.
    repeat match goal with H : nth_error _ _ = Some _ |- _ => cbn in H; injection H as -> end.
    match goal with |- exists ds, _ /\ [_;?c0;?c1;?c2;?c3;?c4;?c5;?c6;?c7;_;?c9;?c10;?c11;?c12;_;?c14;?c15;?c16;?c17;_;?c19;?c20;?c21;?c22;_;?c24;?c25;?c26;?c27;?c28;?c29;?c30;?c31;?c32;?c33;?c34;?c35;_] = _ =>
      exists [c0;c1;c2;c3;c4;c5;c6;c7;c9;c10;c11;c12;c14;c15;c16;c17;c19;c20;c21;c22;c24;c25;c26;c27;c28;c29;c30;c31;c32;c33;c34;c35] end.
    split; reflexivity.
Qed.

(** is_a_valid_uuid_string never misbehaves. *)
Lemma deref_lt s p : p < lenN s -> exists c, deref s p = Ok c.
Proof.
  intros H. unfold deref, lenN in *. destruct (nth_error s (N.to_nat p)) eqn:E; [eauto|].
  apply nth_error_None in E. lia.
Qed.
Lemma bad_delim_total s : forall ds, Forall (fun d => snd d < lenN s) ds ->
  exists b, any_bad_delimiter s ds = Ok b.
Proof.
  induction ds as [|[v p] r IH]; intros H; [now exists false|].
  inversion H as [|? ? Hp Hr]; subst. cbn [any_bad_delimiter].
  destruct (deref_lt s p Hp) as [c ->]. cbn [obind].
  destruct (negb (v =? c)); [now exists true|auto].
Qed.
Lemma valid_total up f s : exists b, is_a_valid_uuid_string (the_fmt up f) s = Ok b.
Proof.
  unfold is_a_valid_uuid_string. rewrite the_fmt_size. pose proof (format_length_bounds f).
  destruct (N.eqb_spec (lenN s) (format_length f)); cbn [negb]; [|now exists false].
  destruct (deref_lt s 0 ltac:(lia)) as [a ->]. destruct (deref_lt s (lenN s - 1) ltac:(lia)) as [b ->].
  cbn [obind]. destruct (_ || _); [now exists false|].
  destruct (bad_delim_total s (f_delims (the_fmt up f))) as [x ->].
  - destruct up, f; repeat constructor; cbn [snd]; rewrite e; reflexivity.
  - cbn [obind]. eauto.
Qed.

Definition parse_ok {A} (dec : list byte -> A) (bad : A) (f : uformat) (s : list N) (r : A) : Prop :=
  (exists u, text_of f s u /\ r = dec u) \/ (~ well_formed f s /\ r = bad).

Definition finish_char (w : cwidth) (after s : list N) (f : uformat) : Prop :=
  match is_a_valid_uuid_string (the_fmt true f) s with
  | Ok true =>
      exists ds, length ds = 32%nat /\ s = layout f ds /\
        strip_non_hex w s (f_prefixed (the_fmt true f)) (repeat 0 32)
          = Ok (filter hexb ds ++ repeat 0 (32 - length (filter hexb ds)))
  | Ok false => ~ well_formed f s
  | _ => False
  end.

Lemma finish w after s f : f <> FX -> checkable w s -> finish_char w after s f.
Proof.
  intros NX L1. unfold finish_char. destruct (valid_total true f s) as [[] V]; rewrite V.
  - destruct (valid_is_layout f s NX V) as (ds & L & ->). exists ds. repeat split; auto.
    replace (f_prefixed (the_fmt true f)) with false by (destruct f; congruence || reflexivity).
    unfold strip_non_hex. pose proof (copy_hex_char w (layout f ds) [] 32 L1) as C. cbn [app] in C.
    change (lenN (@nil N)) with 0 in C. rewrite C. cbv zeta. rewrite filter_layout by assumption.
    rewrite (proj2 (Nat.leb_le _ _)); [reflexivity|]. pose proof (filter_le ds). lia.
  - intros (ds & -> & L & F). rewrite valid_layout in V by assumption. discriminate.
Qed.

Lemma filter_hex ds : Forall is_hex (filter hexb ds).
Proof. apply Forall_forall. intros x I. apply filter_In in I. now apply hexb_iff. Qed.

Lemma used_filter ds : length ds = 32%nat ->
  used_length (filter hexb ds ++ repeat 0 (32 - length (filter hexb ds))) =? 32 = true <-> Forall is_hex ds.
Proof.
  intros L. rewrite used_length_digits by (apply hex_Forall_nonzero, filter_hex).
  rewrite N.eqb_eq. unfold lenN. split.
  - intros E. apply filter_full. lia.
  - intros F. rewrite filter_all by assumption. lia.
Qed.

Lemma layout_not_hex f ds : length ds = 32%nat -> ~ Forall is_hex ds -> ~ well_formed f (layout f ds).
Proof.
  intros L N (es & E & L' & F). apply layout_inj in E; auto. subst. tauto.
Qed.

Lemma uuid_from_string_char w after s up f : f <> FX -> checkable w s -> In 0 after ->
  match uuid_from_string w after s (letter up f) with
  | Ok u => text_of f s u
  | Throw e => e = invalid_argument /\ ~ well_formed f s
  | _ => False
  end.
Proof.
  intros NX L1 I. pose proof (finish w after s f NX L1) as H. unfold finish_char in H.
  unfold uuid_from_string. rewrite parse_format_letter. unfold uuid_from_fmt.
  destruct (is_a_valid_uuid_string (the_fmt true f) s) as [[]| | | |]; try contradiction; cbn [obind negb].
  - destruct H as (ds & L & -> & ->). cbn [obind].
    destruct (used_length _ =? 32) eqn:E; cbn [negb].
    + apply used_filter in E; [|assumption]. rewrite filter_all, L by assumption. cbn [Nat.sub repeat].
      rewrite app_nil_r, from_digits by assumption. now apply from_digits_text_of.
    + split; [reflexivity|]. apply layout_not_hex; [assumption|]. intros F. apply (used_filter ds L) in F. congruence.
  - auto.
Qed.

Lemma try_make_uuid_char w after s up f : f <> FX -> checkable w s -> In 0 after ->
  try_make_uuid w after s (letter up f) =
    match uuid_from_string w after s (letter up f) with
    | Ok u => Ok (RVal u) | _ => Ok (RErr invalid_uuid_format) end.
Proof.
  intros NX L1 I. pose proof (finish w after s f NX L1) as H. unfold finish_char in H.
  unfold try_make_uuid, uuid_from_string. rewrite parse_format_letter. unfold uuid_from_fmt, try_make_uuid_fmt.
  destruct (is_a_valid_uuid_string (the_fmt true f) s) as [[]| | | |]; try contradiction; cbn [obind negb].
  - destruct H as (ds & L & -> & ->). cbn [obind].
    destruct (used_length _ =? 32) eqn:E; cbn [negb]; [|reflexivity].
    apply used_filter in E; [|assumption]. rewrite filter_all, L by assumption. cbn [Nat.sub repeat].
    rewrite app_nil_r, from_digits by assumption. reflexivity.
  - reflexivity.
Qed.

(** Under the standard's rules, every accepted text leads to a read past the array. *)
Lemma parse_standard_ub w s up f : f <> FX -> checkable w s -> well_formed f s ->
  uuid_from_string w [] s (letter up f) = UB /\ try_make_uuid w [] s (letter up f) = UB.
Proof.
  intros NX L1 W. pose proof (finish w [] s f NX L1) as H. unfold finish_char in H.
  unfold try_make_uuid, uuid_from_string. rewrite parse_format_letter. unfold uuid_from_fmt, try_make_uuid_fmt.
  destruct (is_a_valid_uuid_string (the_fmt true f) s) as [[]| | | |]; try contradiction; cbn [obind negb].
  destruct H as (ds & L & -> & ->). cbn [obind]. destruct W as (es & E & L' & F).
  apply layout_inj in E; auto. subst es.
  pose proof (proj2 (used_filter ds L) F) as E. rewrite E. cbn [negb].
  rewrite filter_all, L by assumption. cbn [Nat.sub repeat].
  rewrite app_nil_r, from_digits_standard by assumption. split; reflexivity.
Qed.

(** ** X *)
Lemma valid_X s : is_a_valid_uuid_string fmt_X s = Ok (lenN s =? 68).
Proof.
  unfold is_a_valid_uuid_string. change (f_size fmt_X) with 68.
  destruct (N.eqb_spec (lenN s) 68); cbn [negb]; [|reflexivity].
  destruct (deref_lt s 0 ltac:(lia)) as [a ->]. destruct (deref_lt s (lenN s - 1) ltac:(lia)) as [b ->].
  reflexivity.
Qed.

Lemma strip_X w s : checkable w s -> strip_non_hex w s true (repeat 0 32) =
  if ends_in_0 s then UB
  else if digit_positions s <=? 32 then Ok (xdigits s ++ repeat 0 (32 - length (xdigits s))) else UB.
Proof.
  intros L1. unfold strip_non_hex. change (ch "0") with 48. change (ch "x") with 120.
  pose proof (remove_0x_char w (length s) s [] 32 (Nat.le_refl _) L1) as C. cbn [app] in C.
  change (lenN (@nil N)) with 0 in C. rewrite C. destruct (ends_in_0 s); [reflexivity|].
  rewrite <- xdigits_count.
  replace (lenN (xdigits s) <=? 32) with (length (xdigits s) <=? 32)%nat; [reflexivity|].
  unfold lenN. destruct (Nat.leb_spec (length (xdigits s)) 32), (N.leb_spec (N.of_nat (length (xdigits s))) 32); lia.
Qed.

Lemma X_char w after s up : checkable w s ->
  uuid_from_string w after s (letter up FX) =
    if negb (lenN s =? 68) then Throw invalid_argument
    else if ends_in_0 s then UB
    else match digit_positions s ?= 32 with
         | Lt => Throw invalid_argument
         | Eq => unsafe_uuid_from_digits w after (xdigits s)
         | Gt => UB
         end.
Proof.
  intros L1. unfold uuid_from_string. rewrite parse_format_letter. cbn [the_fmt]. unfold uuid_from_fmt.
  rewrite valid_X. cbn [obind]. destruct (lenN s =? 68); cbn [negb]; [|reflexivity].
  change (f_prefixed fmt_X) with true. rewrite strip_X by assumption.
  destruct (ends_in_0 s); [reflexivity|].
  destruct (N.compare_spec (digit_positions s) 32) as [E|E|E].
  - rewrite (proj2 (N.leb_le _ _)) by lia. cbn [obind].
    rewrite used_length_digits by (apply hex_Forall_nonzero, xdigits_hex).
    rewrite xdigits_count, E. cbn [N.eqb Pos.eqb negb].
    replace (32 - length (xdigits s))%nat with 0%nat.
    + cbn [repeat]. now rewrite app_nil_r.
    + rewrite <- xdigits_count in E. unfold lenN in E. lia.
  - rewrite (proj2 (N.leb_le _ _)) by lia. cbn [obind].
    rewrite used_length_digits by (apply hex_Forall_nonzero, xdigits_hex).
    rewrite xdigits_count, (proj2 (N.eqb_neq _ _)) by lia. reflexivity.
  - rewrite (proj2 (N.leb_gt _ _)) by lia. reflexivity.
Qed.

Lemma xdigits_hex_app ds r : Forall is_hex ds -> (forall q, r <> 120 :: q) -> xdigits (ds ++ r) = ds ++ xdigits r.
Proof.
  intros F R. induction F as [|c ds Hc Hds IH]; [reflexivity|]. cbn [app xdigits].
  rewrite (proj2 (hexb_iff c) Hc), IH.
  assert (N : forall d q, ds ++ r = d :: q -> (d =? 120) = false).
  { intros d q E. apply N.eqb_neq. intros ->. destruct ds as [|x ds]; [now apply (R q)|].
    injection E as -> _. inversion Hds as [|? ? X _]; subst. now apply X. }
  destruct (ds ++ r) as [|d q] eqn:E; [reflexivity|].
  rewrite (N d q eq_refl), andb_false_r. reflexivity.
Qed.

Lemma xdigits_layout ds : length ds = 32%nat -> Forall is_hex ds -> xdigits (layout FX ds) = ds.
Proof.
  intros L F.
  assert (E : ds = part ds 0 8 ++ part ds 8 4 ++ part ds 12 4 ++ part ds 16 2 ++ part ds 18 2 ++ part ds 20 2
    ++ part ds 22 2 ++ part ds 24 2 ++ part ds 26 2 ++ part ds 28 2 ++ part ds 30 2).
  { cases32 ds L. reflexivity. }
  assert (P : forall i n, Forall is_hex (part ds i n)) by (intros; now apply Forall_part).
  etransitivity; [|symmetry; exact E]. cbn [layout].
  assert (A : forall r, xdigits (txt "{0x" ++ r) = xdigits r) by (intros; reflexivity).
  assert (B : forall r, xdigits (txt ",0x" ++ r) = xdigits r) by (intros; reflexivity).
  assert (C : forall r, xdigits (txt ",{0x" ++ r) = xdigits r) by (intros; reflexivity).
  rewrite A.
  repeat (rewrite xdigits_hex_app; [f_equal; rewrite ?B, ?C|apply P|intros q; discriminate]).
  change (xdigits (txt "}}")) with (@nil N). now rewrite app_nil_r.
Qed.

Lemma hex_latin1 c : is_hex c -> c < 256.
Proof.
  unfold is_hex, hex_value. intros H.
  repeat match goal with H : context [?a <=? ?b] |- _ => destruct (N.leb_spec a b); cbn [andb] in H end;
    try lia; congruence.
Qed.
Lemma layout_is_latin1 f ds : Forall is_hex ds -> latin1 (layout f ds).
Proof.
  intros H. assert (Z : latin1 ds) by (eapply Forall_impl; [|exact H]; intros; now apply hex_latin1).
  assert (D : forall i n, latin1 (part ds i n)) by (intros; now apply Forall_part).
  unfold latin1 in *. destruct f; unfold layout, dashed; auto;
  repeat (apply Forall_app; split); auto;
  repeat (constructor; [vm_compute; reflexivity|]); constructor.
Qed.

Lemma layout_checkable w f ds : Forall is_hex ds -> checkable w (layout f ds).
Proof. intros F. now apply latin1_checkable, layout_is_latin1. Qed.

Lemma layout_X_end ds : ends_in_0 (layout FX ds) = false.
Proof. unfold ends_in_0. cbn [layout]. rewrite !app_assoc. rewrite rev_app_distr. reflexivity. Qed.

Lemma X_layout w after up ds : length ds = 32%nat -> Forall is_hex ds ->
  uuid_from_string w after (layout FX ds) (letter up FX) = unsafe_uuid_from_digits w after ds.
Proof.
  intros L F. rewrite X_char by now apply layout_checkable. rewrite layout_length by assumption.
  cbn [format_length N.eqb Pos.eqb negb]. rewrite layout_X_end.
  rewrite <- xdigits_count, xdigits_layout by assumption. 
  replace (lenN ds) with 32 by (unfold lenN; rewrite L; reflexivity). reflexivity.
Qed.

(** ** Round trip *)
Lemma roundtrip m w after u up f s : is_uuid u -> In 0 after ->
  to_string (Env m m) w u (letter up f) = Ok s -> uuid_from_string w after s (letter up f) = Ok u.
Proof.
  intros U I E. rewrite to_string_char in E by assumption. injection E as <-.
  pose proof (uuid_digits_length up u) as L. pose proof (uuid_digits_hex up u) as F.
  assert (T : text_of f (layout f (uuid_digits up u)) u).
  { split; [assumption|]. exists (uuid_digits up u). split; [reflexivity|apply uuid_digits_denotes]. }
  apply text_of_decode in T; [|assumption]. destruct T as [T _].
  destruct f; [| | | |unfold uuid_text; rewrite X_layout, from_digits by assumption; now rewrite T at 2].
  all: unfold uuid_text;
    match goal with |- uuid_from_string _ _ (layout ?f _) _ = _ =>
      pose proof (uuid_from_string_char w after (layout f (uuid_digits up u)) up f ltac:(discriminate)
                    (layout_checkable w _ _ F) I) as C;
      destruct (uuid_from_string w after (layout f (uuid_digits up u)) (letter up f)); try contradiction;
      [apply text_of_decode in C; [|assumption]; destruct C as [C _]; congruence
      |exfalso; apply C; exists (uuid_digits up u); auto]
    end.
Qed.

Lemma roundtrip_standard_ub m w u up f s : is_uuid u ->
  to_string (Env m m) w u (letter up f) = Ok s -> uuid_from_string w [] s (letter up f) = UB.
Proof.
  intros U E. rewrite to_string_char in E by assumption. injection E as <-.
  pose proof (uuid_digits_length up u) as L. pose proof (uuid_digits_hex up u) as F.
  destruct f; [| | | |unfold uuid_text; now rewrite X_layout, from_digits_standard by assumption].
  all: unfold uuid_text; apply parse_standard_ub; [discriminate|now apply layout_checkable|exists (uuid_digits up u); auto].
Qed.
