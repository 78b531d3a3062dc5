From Verif Require Import Base BaseFacts Io_Model Io_Spec.

Ltac Zify.zify_post_hook ::= Z.div_mod_to_equations.
Arguments N.mul : simpl never.
Arguments N.add : simpl never.
Arguments N.sub : simpl never.
Arguments Z.mul : simpl never.
Arguments Z.pow : simpl never.
Arguments N.modulo : simpl never.
Arguments N.div : simpl never.

(** ** Positional notation *)

Lemma length_le_bytes n u : length (le_bytes n u) = n.
Proof. revert u; induction n as [|n IH]; intros u; cbn; [easy|now rewrite IH]. Qed.

Lemma le_num_le_bytes n u : le_num (le_bytes n u) = u mod 256 ^ N.of_nat n.
Proof.
  revert u; induction n as [|n IH]; intros u.
  - cbn. now rewrite N.mod_1_r.
  - cbn [le_bytes le_num]. rewrite to_N_byte_of_N, IH.
    replace (N.of_nat (S n)) with (1 + N.of_nat n) by lia.
    rewrite N.pow_add_r, N.pow_1_r.
    rewrite N.mod_mul_r; [lia| lia | apply N.pow_nonzero; lia].
Qed.

Lemma le_bytes_le_num bs : le_bytes (length bs) (le_num bs) = bs.
Proof.
  induction bs as [|b r IH]; [reflexivity|].
  cbn [length le_num le_bytes]. pose proof (to_N_lt b). f_equal.
  - apply to_N_inj. rewrite to_N_byte_of_N. lia.
  - replace ((Byte.to_N b + 256 * le_num r) / 256) with (le_num r) by lia. exact IH.
Qed.

Lemma le_num_bound bs : le_num bs < 256 ^ lenN bs.
Proof.
  induction bs as [|b r IH]; [cbn; lia|].
  cbn [le_num]. rewrite lenN_cons. rewrite N.pow_add_r, N.pow_1_r.
  pose proof (to_N_lt b). nia.
Qed.

Lemma nth_le_bytes n u i : (i < n)%nat ->
  exists b, nth_error (le_bytes n u) i = Some b /\ Byte.to_N b = (u / 256 ^ N.of_nat i) mod 256.
Proof.
  revert u i; induction n as [|n IH]; intros u i Hi; [lia|].
  destruct i as [|i].
  - cbn. eexists; split; [reflexivity|]. rewrite to_N_byte_of_N. now rewrite N.div_1_r.
  - cbn [le_bytes nth_error]. destruct (IH (u / 256) i ltac:(lia)) as (b & Hb & Hv).
    exists b. split; [exact Hb|]. rewrite Hv. f_equal.
    rewrite N.div_div by (try apply N.pow_nonzero; lia). f_equal.
    replace (N.of_nat (S i)) with (1 + N.of_nat i) by lia. now rewrite N.pow_add_r, N.pow_1_r.
Qed.

Lemma pow256 n : (256 ^ Z.of_nat n = 2 ^ (8 * Z.of_nat n))%Z.
Proof. rewrite Z.pow_mul_r by lia. reflexivity. Qed.

(** digits of [z mod 256^n] are digits of [z] *)
Lemma digit_mod z n i : (i < n)%nat ->
  (((z mod 2 ^ (8 * Z.of_nat n)) / 256 ^ Z.of_nat i) mod 256 = (z / 256 ^ Z.of_nat i) mod 256)%Z.
Proof.
  intros Hi. rewrite <- pow256.
  replace (Z.of_nat n) with (Z.of_nat i + (1 + Z.of_nat (n - i - 1)))%Z by lia.
  rewrite Z.pow_add_r by lia.
  set (a := (256 ^ Z.of_nat i)%Z). assert (0 < a)%Z by (apply Z.pow_pos_nonneg; lia).
  rewrite (Z.rem_mul_r z a) by (try apply Z.pow_pos_nonneg; lia).
  rewrite (Z.mul_comm a), Z.div_add by lia.
  rewrite Z.div_small by (apply Z.mod_pos_bound; lia). rewrite Z.add_0_l.
  rewrite Z.pow_add_r by lia. rewrite Z.pow_1_r.
  rewrite (Z.rem_mul_r _ 256) by (try apply Z.pow_pos_nonneg; lia).
  rewrite (Z.mul_comm 256). rewrite Z.mod_add by lia. now rewrite Z.mod_mod by lia.
Qed.

Lemma to_N_mod_bound z n :
  (Z.of_N (Z.to_N (z mod 2 ^ (8 * Z.of_nat n))) = z mod 2 ^ (8 * Z.of_nat n))%Z.
Proof.
  rewrite Z2N.id; [reflexivity|]. apply Z.mod_pos_bound. apply Z.pow_pos_nonneg; lia.
Qed.

Lemma le_is_wire n z : is_wire little n z (le_bytes n (Z.to_N (z mod 2 ^ (8 * Z.of_nat n)))).
Proof.
  split; [apply length_le_bytes|]. intros i Hi.
  destruct (nth_le_bytes n (Z.to_N (z mod 2 ^ (8 * Z.of_nat n))) i Hi) as (b & Hb & Hv).
  exists b. split; [exact Hb|]. rewrite Hv.
  rewrite N2Z.inj_mod, N2Z.inj_div, N2Z.inj_pow, to_N_mod_bound.
  rewrite nat_N_Z. change (Z.of_N 256) with 256%Z. now apply digit_mod.
Qed.

Lemma nth_error_rev {A} (l : list A) i : (i < length l)%nat ->
  nth_error (rev l) i = nth_error l (length l - 1 - i).
Proof.
  intros Hi. destruct l as [|a l']; [cbn in Hi; lia|]. set (l := a :: l') in *.
  rewrite (nth_error_nth' (rev l) a) by (rewrite rev_length; lia).
  rewrite (nth_error_nth' l a) by lia. f_equal. rewrite rev_nth by lia. f_equal. lia.
Qed.

Lemma is_wire_rev e n z bs : is_wire e n z bs -> is_wire (flip e) n z (rev bs).
Proof.
  intros [Hl Hd]. split; [now rewrite rev_length|]. intros i Hi.
  destruct (Hd i Hi) as (b & Hb & Hv). exists b. split; [|exact Hv].
  rewrite nth_error_rev by (destruct e; cbn; lia). rewrite Hl. rewrite <- Hb.
  f_equal. destruct e; cbn; lia.
Qed.

Lemma is_wire_mem m n z : is_wire m n z (int_to_mem m n z).
Proof.
  unfold int_to_mem. destruct m; [apply le_is_wire|].
  apply (is_wire_rev little). apply le_is_wire.
Qed.

Lemma is_wire_unique e n z a b : is_wire e n z a -> is_wire e n z b -> a = b.
Proof.
  intros [La Ha] [Lb Hb]. apply nth_error_ext. intros k.
  destruct (Nat.lt_ge_cases k n) as [Hk|Hk].
  - set (i := match e with little => k | big => (n - 1 - k)%nat end).
    assert (Hi : (i < n)%nat) by (subst i; destruct e; lia).
    assert (Hk2 : match e with little => i | big => (n - 1 - i)%nat end = k) by (subst i; destruct e; lia).
    destruct (Ha i Hi) as (x & Hx & Vx), (Hb i Hi) as (y & Hy & Vy).
    rewrite Hk2 in Hx, Hy. rewrite Hx, Hy. f_equal. apply to_N_inj. lia.
  - rewrite (proj2 (nth_error_None a k)) by lia. symmetry. apply nth_error_None. lia.
Qed.

(** ** Values and bytes *)

Lemma byte_begin_order_invol {A} ev e (l : list A) :
  byte_begin_order ev e (byte_begin_order ev e l) = l.
Proof. unfold byte_begin_order. destruct (endian_eqb _ _); [easy|apply rev_involutive]. Qed.
Lemma length_byte_begin_order {A} ev e (l : list A) :
  length (byte_begin_order ev e l) = length l.
Proof. unfold byte_begin_order. destruct (endian_eqb _ _); [easy|apply rev_length]. Qed.

Lemma length_int_to_mem m n z : length (int_to_mem m n z) = n.
Proof. unfold int_to_mem. destruct m; rewrite ?rev_length; apply length_le_bytes. Qed.

Lemma int_of_to_mem m n sg z : (0 < n)%nat -> int_ok n sg z ->
  int_of_mem m n sg (int_to_mem m n z) = z.
Proof.
  intros Hn Hz. unfold int_of_mem, int_to_mem.
  set (u := Z.to_N (z mod 2 ^ (8 * Z.of_nat n))).
  assert (Hmem : match m with
      | little => match m with little => le_bytes n u | big => rev (le_bytes n u) end
      | big => rev match m with little => le_bytes n u | big => rev (le_bytes n u) end
      end = le_bytes n u) by (destruct m; [easy|apply rev_involutive]).
  rewrite Hmem, le_num_le_bytes.
  assert (Hu : Z.of_N (u mod 256 ^ N.of_nat n) = (z mod 2 ^ (8 * Z.of_nat n))%Z).
  { rewrite N2Z.inj_mod, N2Z.inj_pow, nat_N_Z. change (Z.of_N 256) with 256%Z.
    rewrite pow256. unfold u. rewrite to_N_mod_bound.
    apply Z.mod_mod. apply Z.pow_nonzero; lia. }
  rewrite Hu. unfold int_ok in Hz.
  assert (Hp : (2 ^ (8 * Z.of_nat n) = 2 * 2 ^ (8 * Z.of_nat n - 1))%Z).
  { rewrite <- Z.pow_succ_r by lia. f_equal. lia. }
  assert (Hpos : (0 < 2 ^ (8 * Z.of_nat n - 1))%Z) by (apply Z.pow_pos_nonneg; lia).
  rewrite Hp. set (h := (2 ^ (8 * Z.of_nat n - 1))%Z) in *.
  destruct sg; cbn [andb].
  - destruct (Z.le_gt_cases 0 z).
    + rewrite Z.mod_small by lia. destruct (Z.leb_spec h z); lia.
    + replace (z mod (2 * h))%Z with (z + 2 * h)%Z.
      * destruct (Z.leb_spec h (z + 2 * h)); lia.
      * apply (Z.mod_unique _ _ (-1)); lia.
  - apply Z.mod_small. lia.
Qed.

Lemma int_of_mem_ok m n sg bs : (0 < n)%nat -> length bs = n -> int_ok n sg (int_of_mem m n sg bs).
Proof.
  intros Hn Hl. unfold int_of_mem.
  set (l := match m with little => bs | big => rev bs end).
  assert (Hll : length l = n) by (subst l; destruct m; rewrite ?rev_length; lia).
  pose proof (le_num_bound l) as Hb. unfold lenN in Hb. rewrite Hll in Hb.
  assert (Hb' : (Z.of_N (le_num l) < 2 ^ (8 * Z.of_nat n))%Z).
  { rewrite <- pow256. apply N2Z.inj_lt in Hb. rewrite N2Z.inj_pow, nat_N_Z in Hb. exact Hb. }
  assert (Hp : (2 ^ (8 * Z.of_nat n) = 2 * 2 ^ (8 * Z.of_nat n - 1))%Z).
  { rewrite <- Z.pow_succ_r by lia. f_equal. lia. }
  unfold int_ok. rewrite Hp in *. set (h := (2 ^ (8 * Z.of_nat n - 1))%Z) in *.
  destruct sg; cbn [andb]; [|lia].
  destruct (Z.leb_spec h (Z.of_N (le_num l))); lia.
Qed.

Lemma int_to_of_mem m n sg bs : (0 < n)%nat -> length bs = n ->
  int_to_mem m n (int_of_mem m n sg bs) = bs.
Proof.
  intros Hn Hl. unfold int_of_mem, int_to_mem.
  set (l := match m with little => bs | big => rev bs end).
  assert (Hll : length l = n) by (subst l; destruct m; rewrite ?rev_length; lia).
  pose proof (le_num_bound l) as Hb. unfold lenN in Hb. rewrite Hll in Hb.
  assert (Hb' : (Z.of_N (le_num l) < 2 ^ (8 * Z.of_nat n))%Z).
  { rewrite <- pow256. apply N2Z.inj_lt in Hb. rewrite N2Z.inj_pow, nat_N_Z in Hb. exact Hb. }
  assert (Hm : ((if sg && (2 ^ (8 * Z.of_nat n - 1) <=? Z.of_N (le_num l))%Z
               then Z.of_N (le_num l) - 2 ^ (8 * Z.of_nat n) else Z.of_N (le_num l)) mod 2 ^ (8 * Z.of_nat n)
             = Z.of_N (le_num l))%Z).
  { destruct (sg && _).
    - symmetry. apply (Z.mod_unique _ _ (-1)); lia.
    - apply Z.mod_small; lia. }
  rewrite Hm. rewrite N2Z.id. rewrite <- Hll, le_bytes_le_num. subst l.
  destruct m; [easy|apply rev_involutive].
Qed.

Lemma of_to_mem m s v : value_ok s v -> of_mem m s (to_mem m s v) = v.
Proof.
  destruct s as [n sg|n], v as [z|bs]; cbn; try easy.
  intros [Hn Hz]. now rewrite int_of_to_mem.
Qed.

Lemma length_to_mem m s v : value_ok s v -> length (to_mem m s v) = scalar_bytes s.
Proof.
  destruct s as [n sg|n], v as [z|bs]; cbn; try easy. intros _. apply length_int_to_mem.
Qed.

Lemma of_mem_ok m s bs : (0 < scalar_bytes s)%nat -> length bs = scalar_bytes s -> value_ok s (of_mem m s bs).
Proof.
  destruct s as [n sg|n]; cbn; intros Hn Hl; (split; [lia|]).
  - now apply int_of_mem_ok.
  - easy.
Qed.

Lemma to_of_mem m s bs : (0 < scalar_bytes s)%nat -> length bs = scalar_bytes s -> to_mem m s (of_mem m s bs) = bs.
Proof. destruct s as [n sg|n]; cbn; intros Hn Hl; [now apply int_to_of_mem|easy]. Qed.

Lemma value_roundtrip ev t v : typed t v -> value_of_bytes ev t (bytes_of_value ev t v) = v.
Proof.
  destruct t as [s|e n sg]; unfold typed; cbn [scalar_of value_of_bytes bytes_of_value]; intros H.
  - now apply of_to_mem.
  - rewrite byte_begin_order_invol. now apply of_to_mem.
Qed.

Lemma bytes_roundtrip ev t bs : vtype_ok t -> length bs = scalar_bytes (scalar_of t) ->
  bytes_of_value ev t (value_of_bytes ev t bs) = bs.
Proof.
  destruct t as [s|e n sg]; unfold vtype_ok; cbn [scalar_of value_of_bytes bytes_of_value]; intros H Hl.
  - now apply to_of_mem.
  - rewrite to_of_mem; [apply byte_begin_order_invol|exact H|now rewrite length_byte_begin_order].
Qed.

Lemma value_of_bytes_typed ev t bs : vtype_ok t -> length bs = scalar_bytes (scalar_of t) ->
  typed t (value_of_bytes ev t bs).
Proof.
  destruct t as [s|e n sg]; unfold vtype_ok, typed; cbn [scalar_of value_of_bytes]; intros H Hl.
  - now apply of_mem_ok.
  - apply of_mem_ok; [exact H|now rewrite length_byte_begin_order].
Qed.

Lemma length_bytes_of_value ev t v : typed t v ->
  length (bytes_of_value ev t v) = scalar_bytes (scalar_of t).
Proof.
  destruct t as [s|e n sg]; unfold typed; cbn [scalar_of bytes_of_value]; intros H;
    rewrite ?length_byte_begin_order; now apply length_to_mem.
Qed.

Lemma lenN_bytes_of_value ev t v : typed t v -> lenN (bytes_of_value ev t v) = value_size t.
Proof. intros H. unfold lenN, value_size. now rewrite length_bytes_of_value. Qed.

Lemma value_encoding_bytes ev t v : typed t v -> value_encoding ev t v (bytes_of_value ev t v).
Proof.
  destruct t as [[n sg|n]|e n sg], v as [z|bs]; unfold typed; cbn; try easy; intros _.
  - apply is_wire_mem.
  - unfold byte_begin_order, effective.
    pose proof (is_wire_mem (machine ev) n z) as H.
    destruct ev as [[] []], e; cbn in *; try exact H;
      try exact (is_wire_rev _ _ _ _ H).
Qed.

Lemma value_encoding_unique ev t v a b :
  value_encoding ev t v a -> value_encoding ev t v b -> a = b.
Proof.
  destruct t as [[n sg|n]|e n sg], v as [z|bs]; cbn; try easy; try congruence;
    apply is_wire_unique.
Qed.

Lemma value_encoding_eq ev t v b : typed t v -> value_encoding ev t v b -> b = bytes_of_value ev t v.
Proof. intros Ht H. eapply value_encoding_unique; [exact H|now apply value_encoding_bytes]. Qed.

(** ** Arguments *)

Definition enc_arg (ev : env) (a : warg) : list byte :=
  match a with
  | AVal t v => bytes_of_value ev t v
  | ARange s vs => concat (map (bytes_of_value ev (TPlain s)) vs)
  end.
Definition enc_args (ev : env) (args : list warg) : list byte := concat (map (enc_arg ev) args).

Lemma lenN_concat_map {A} (f : A -> list byte) l n :
  Forall (fun a => lenN (f a) = n) l -> lenN (concat (map f l)) = lenN l * n.
Proof.
  induction 1 as [|a l Ha _ IH]; cbn [map concat]; [unfold lenN; cbn [length]; lia|].
  rewrite lenN_app, lenN_cons, Ha, IH. lia.
Qed.

Lemma lenN_enc_arg ev a : arg_ok a -> lenN (enc_arg ev a) = arg_bytes a.
Proof.
  destruct a as [t v|s vs]; cbn; intros H.
  - now apply lenN_bytes_of_value.
  - destruct H as [Hs Hv]. apply lenN_concat_map. eapply Forall_impl; [|exact Hv].
    intros v Hok. now apply (lenN_bytes_of_value ev (TPlain s)).
Qed.

Lemma lenN_enc_args ev args : Forall arg_ok args -> lenN (enc_args ev args) = args_size args.
Proof.
  unfold enc_args, args_size. induction 1 as [|a l Ha _ IH]; cbn [map concat sum fold_right]; [reflexivity|].
  rewrite lenN_app, lenN_enc_arg by exact Ha. unfold sum in *. now rewrite IH.
Qed.

Lemma arg_encoding_enc ev a : arg_ok a -> arg_encoding ev a (enc_arg ev a).
Proof.
  destruct a as [t v|s vs]; cbn; intros H; [now apply value_encoding_bytes|].
  exists (map (bytes_of_value ev (TPlain s)) vs). split; [|reflexivity].
  destruct H as [_ Hv]. induction Hv as [|v vs Hok _ IH]; cbn; constructor; [|exact IH].
  now apply (value_encoding_bytes ev (TPlain s)).
Qed.

Lemma arg_encoding_eq ev a bs : arg_ok a -> arg_encoding ev a bs -> bs = enc_arg ev a.
Proof.
  destruct a as [t v|s vs]; cbn; intros H He; [now apply value_encoding_eq|].
  destruct He as (bss & Hf & ->), H as [_ Hv]. f_equal. revert Hv.
  induction Hf as [|v b vs bss Hb _ IH]; intros Hv; [reflexivity|]. inversion Hv; subst.
  cbn [map]. f_equal; [now apply (value_encoding_eq ev (TPlain s))|now apply IH].
Qed.

Lemma args_encoding_eq ev args bs : Forall arg_ok args -> args_encoding ev args bs -> bs = enc_args ev args.
Proof.
  intros Hok (bss & Hf & ->). unfold enc_args. f_equal.
  induction Hf as [|a b args bss Hb _ IH]; [reflexivity|]. inversion Hok; subst.
  cbn [map]. f_equal; [now apply arg_encoding_eq|now apply IH].
Qed.

Lemma args_encoding_enc ev args : Forall arg_ok args -> args_encoding ev args (enc_args ev args).
Proof.
  intros Hok. exists (map (enc_arg ev) args). split; [|reflexivity].
  induction Hok as [|a l Ha _ IH]; cbn; constructor; [now apply arg_encoding_enc|exact IH].
Qed.

(** ** Storing *)

Definition splice (buf : list byte) (pos : N) (bs : list byte) : list byte :=
  takeN pos buf ++ bs ++ dropN (pos + lenN bs) buf.

Lemma store_ok buf pos bs : pos + lenN bs <= lenN buf -> store buf pos bs = Ok (splice buf pos bs).
Proof. intros H. unfold store. now rewrite (proj2 (N.leb_le _ _) H). Qed.
Lemma store_ub buf pos bs : lenN buf < pos + lenN bs -> store buf pos bs = UB.
Proof. intros H. unfold store. now rewrite (proj2 (N.leb_gt _ _) H). Qed.
Lemma advance_ok buf pos n : pos + n <= lenN buf -> advance buf pos n = Ok (pos + n).
Proof. intros H. unfold advance. now rewrite (proj2 (N.leb_le _ _) H). Qed.
Lemma load_ok buf pos n : pos + n <= lenN buf -> load buf pos n = Ok (slice buf pos n).
Proof. intros H. unfold load. now rewrite (proj2 (N.leb_le _ _) H). Qed.

Lemma lenN_splice buf pos bs : pos + lenN bs <= lenN buf -> lenN (splice buf pos bs) = lenN buf.
Proof. intros H. unfold splice. rewrite !lenN_app, lenN_takeN, lenN_dropN. lia. Qed.

Lemma splice_nil buf pos : pos <= lenN buf -> splice buf pos [] = buf.
Proof. intros H. unfold splice. cbn [app]. rewrite lenN_nil, N.add_0_r. apply takeN_dropN. Qed.

Lemma splice_splice buf pos a b : pos + lenN a + lenN b <= lenN buf ->
  splice (splice buf pos a) (pos + lenN a) b = splice buf pos (a ++ b).
Proof.
  intros H. unfold splice at 1.
  assert (Hp : lenN (takeN pos buf) = pos) by (rewrite lenN_takeN; lia).
  assert (T : takeN (pos + lenN a) (splice buf pos a) = takeN pos buf ++ a).
  { unfold splice. rewrite app_assoc. apply takeN_app_exact. rewrite lenN_app. lia. }
  assert (D : dropN (pos + lenN a + lenN b) (splice buf pos a) = dropN (pos + lenN (a ++ b)) buf).
  { unfold splice. rewrite app_assoc, dropN_app, dropN_all by (rewrite lenN_app; lia).
    rewrite dropN_dropN. cbn [app]. f_equal. rewrite !lenN_app. lia. }
  rewrite T, D. unfold splice. rewrite <- !app_assoc. reflexivity.
Qed.


Lemma nth_error_takeN {A} n (l : list A) i :
  nth_error (takeN n l) i = if N.of_nat i <? n then nth_error l i else None.
Proof.
  unfold takeN. destruct (N.ltb_spec (N.of_nat i) n).
  - revert l n H. induction i as [|i IH]; intros l n H.
    + destruct (N.to_nat n) eqn:E; [lia|]. now destruct l.
    + destruct (N.to_nat n) as [|m] eqn:E; [lia|]. destruct l; [easy|]. cbn.
      specialize (IH l (N.of_nat m)). rewrite Nnat.Nat2N.id in IH. apply IH. lia.
  - apply nth_error_None. rewrite firstn_length. lia.
Qed.
Lemma nth_error_dropN {A} n (l : list A) i : nth_error (dropN n l) i = nth_error l (N.to_nat n + i).
Proof.
  unfold dropN. generalize (N.to_nat n). intros k. revert l. induction k as [|k IH]; intros l; [reflexivity|].
  destruct l; cbn; [now rewrite ?nth_error_nil; destruct i|apply IH].
Qed.

Lemma splice_overwritten buf pos bs : pos + lenN bs <= lenN buf -> overwritten buf pos bs (splice buf pos bs).
Proof.
  intros H. split.
  - pose proof (lenN_splice buf pos bs H) as L. unfold lenN in L. lia.
  - intros i. unfold splice.
    assert (Hp : length (takeN pos buf) = N.to_nat pos).
    { pose proof (lenN_takeN pos buf). unfold lenN in *. lia. }
    destruct (N.ltb_spec (N.of_nat i) pos) as [L|L]; cbn [orb].
    + rewrite nth_error_app1 by lia. rewrite nth_error_takeN.
      now rewrite (proj2 (N.ltb_lt _ _) L).
    + rewrite nth_error_app2 by lia. rewrite Hp.
      destruct (N.leb_spec (pos + lenN bs) (N.of_nat i)) as [G|G]; unfold lenN in G.
      * rewrite nth_error_app2 by lia. rewrite nth_error_dropN. f_equal. unfold lenN. lia.
      * rewrite nth_error_app1 by lia. reflexivity.
Qed.



(** ** Writing *)

Lemma sum_cons x l : sum (x :: l) = x + sum l. Proof. reflexivity. Qed.

Lemma arg_size_small a : arg_bytes a < size_mod -> arg_size a = arg_bytes a.
Proof.
  destruct a as [t v|s vs]; cbn [arg_bytes arg_size]; intros H; [easy|].
  unfold range_bytes. now rewrite sz_mul_small.
Qed.

Lemma byte_count_small args : args_size args < size_mod -> byte_count args = args_size args.
Proof.
  unfold args_size. induction args as [|a r IH]; cbn [map byte_count]; [easy|].
  rewrite sum_cons. intros H. rewrite IH by lia. rewrite arg_size_small by lia.
  apply sz_add_small. lia.
Qed.

Lemma byte_count_ty_small ts : types_size ts < size_mod -> byte_count_ty ts = types_size ts.
Proof.
  unfold types_size. induction ts as [|a r IH]; cbn [map byte_count_ty]; [easy|].
  rewrite sum_cons. intros H. rewrite IH by lia. apply sz_add_small. lia.
Qed.


Lemma write_range_elems_ok ev s vs : Forall (value_ok s) vs -> forall buf pos done,
  let bs := concat (map (bytes_of_value ev (TPlain s)) vs) in
  pos + lenN bs <= lenN buf -> done + lenN bs < size_mod ->
  write_range_elems ev s vs buf pos done = (splice buf pos bs, Ok (done + lenN bs)).
Proof.
  induction 1 as [|v vs Hv Hvs IH]; intros buf pos done; cbn [map concat write_range_elems]; intros Hfit Hd.
  - rewrite splice_nil by lia. now rewrite lenN_nil, N.add_0_r.
  - set (b := bytes_of_value ev (TPlain s) v) in *.
    set (r := concat (map (bytes_of_value ev (TPlain s)) vs)) in *.
    assert (Hb : lenN b = value_size (TPlain s)) by now apply (lenN_bytes_of_value ev (TPlain s)).
    rewrite lenN_app in *. rewrite store_ok by lia. rewrite <- Hb.
    rewrite advance_ok by (rewrite lenN_splice; lia).
    rewrite IH; rewrite ?lenN_splice, ?sz_add_small; try lia. fold r.
    rewrite splice_splice by lia. do 2 f_equal. lia.
Qed.

Lemma unchecked_write_ok ev a buf pos : arg_ok a -> pos + arg_bytes a <= lenN buf -> arg_bytes a < size_mod ->
  unchecked_write ev a buf pos = (splice buf pos (enc_arg ev a), Ok (arg_bytes a)).
Proof.
  intros Ha Hfit Hlt. pose proof (lenN_enc_arg ev a Ha) as Hl. destruct a as [t v|s vs]; cbn [unchecked_write enc_arg arg_bytes] in *.
  - rewrite store_ok by lia. reflexivity.
  - destruct Ha as [_ Hv]. rewrite write_range_elems_ok by (try exact Hv; lia). now rewrite N.add_0_l, Hl.
Qed.

Lemma recursive_unsafe_write_ok ev args : Forall arg_ok args -> forall buf pos,
  pos + args_size args <= lenN buf -> lenN buf < size_mod ->
  recursive_unsafe_write ev args buf pos = (splice buf pos (enc_args ev args), Ok (args_size args)).
Proof.
  induction 1 as [|a r Ha Hr IH]; intros buf pos Hfit Hlt; cbn [recursive_unsafe_write].
  - unfold enc_args. cbn [map concat]. rewrite splice_nil; [reflexivity|].
    unfold args_size in Hfit. cbn in Hfit. lia.
  - pose proof (lenN_enc_arg ev a Ha) as Hl.
    change (args_size (a :: r)) with (arg_bytes a + args_size r) in *.
    change (enc_args ev (a :: r)) with (enc_arg ev a ++ enc_args ev r).
    pose proof (lenN_enc_args ev r Hr) as Hlr.
    rewrite unchecked_write_ok by (try exact Ha; lia).
    destruct r as [|a' r'].
    + unfold enc_args, args_size. cbn [map concat sum fold_right]. rewrite app_nil_r, N.add_0_r. reflexivity.
    + rewrite arg_size_small by lia. rewrite advance_ok by (rewrite lenN_splice; lia).
      rewrite IH by (rewrite ?lenN_splice; lia).
      rewrite <- Hl, splice_splice by lia. rewrite sz_add_small by lia. reflexivity.
Qed.

Lemma write_char ev args buf : Forall arg_ok args -> lenN buf < size_mod -> args_size args < size_mod ->
  write ev args buf =
    if lenN buf <? args_size args then (buf, Throw out_of_range)
    else (splice buf 0 (enc_args ev args), Ok (args_size args)).
Proof.
  intros Ha Hb Hs. unfold write. rewrite byte_count_small by lia.
  destruct (N.ltb_spec (lenN buf) (args_size args)); [reflexivity|].
  apply recursive_unsafe_write_ok; lia || assumption.
Qed.

Lemma write_at_char ev args pos buf : Forall arg_ok args -> pos < size_mod -> lenN buf < size_mod -> args_size args < size_mod ->
  write_at ev args pos buf =
    if size_mod <=? pos + args_size args then (buf, Throw invalid_argument)
    else if lenN buf <? pos + args_size args then (buf, Throw out_of_range)
    else (splice buf pos (enc_args ev args), Ok (pos + args_size args)).
Proof.
  intros Ha Hp Hb Hs. unfold write_at. rewrite byte_count_small by lia.
  pose proof (sz_add_wraps pos (args_size args) Hp Hs) as W.
  destruct (N.leb_spec size_mod (pos + args_size args)).
  - rewrite (proj2 (N.ltb_lt _ _)) by (apply W; lia). reflexivity.
  - rewrite (proj2 (N.ltb_ge _ _)) by lia. rewrite sz_add_small by lia.
    destruct (N.ltb_spec (lenN buf) (pos + args_size args)); [reflexivity|].
    rewrite recursive_unsafe_write_ok by (try assumption; lia). now rewrite sz_add_small by lia.
Qed.

Lemma try_write1_char ev a buf : arg_ok a -> lenN buf < size_mod -> arg_bytes a < size_mod ->
  try_write1 ev a buf =
    if lenN buf <? arg_bytes a then (buf, Ok (RErr wr_insufficient_buffer))
    else (splice buf 0 (enc_arg ev a), Ok (RVal (arg_bytes a))).
Proof.
  intros Ha Hb Hs. unfold try_write1. rewrite arg_size_small by lia.
  destruct (N.ltb_spec (lenN buf) (arg_bytes a)); [reflexivity|].
  now rewrite unchecked_write_ok by (try assumption; lia).
Qed.

Lemma span_ok buf pos : pos <= lenN buf -> span_from buf pos = Ok (dropN pos buf).
Proof. intros H. unfold span_from. now rewrite (proj2 (N.leb_le _ _) H). Qed.

Lemma on_span_splice buf pos bs : pos + lenN bs <= lenN buf ->
  takeN pos buf ++ splice (dropN pos buf) 0 bs = splice buf pos bs.
Proof.
  intros H. unfold splice. rewrite takeN_0, dropN_dropN. cbn [app]. do 3 f_equal. lia.
Qed.

Lemma try_write_at1_char ev a pos buf : arg_ok a -> pos < size_mod -> lenN buf < size_mod -> arg_bytes a < size_mod ->
  try_write_at1 ev a pos buf =
    if size_mod <=? pos + arg_bytes a then (buf, Ok (RErr wr_invalid_position_offset))
    else if (lenN buf <=? pos) || (lenN buf <? pos + arg_bytes a) then (buf, Ok (RErr wr_insufficient_buffer))
    else (splice buf pos (enc_arg ev a), Ok (RVal (pos + arg_bytes a))).
Proof.
  intros Ha Hp Hb Hs. pose proof (lenN_enc_arg ev a Ha) as Hl.
  unfold try_write_at1. rewrite arg_size_small by lia.
  pose proof (sz_add_wraps pos (arg_bytes a) Hp Hs) as W.
  destruct (N.leb_spec size_mod (pos + arg_bytes a)).
  - now rewrite (proj2 (N.ltb_lt _ _)) by (apply W; lia).
  - rewrite (proj2 (N.ltb_ge _ _)) by lia.
    destruct (N.leb_spec (lenN buf) pos); cbn [orb]; [reflexivity|].
    unfold on_span. rewrite span_ok by lia.
    rewrite try_write1_char by (try assumption; rewrite ?lenN_dropN; lia).
    rewrite lenN_dropN.
    destruct (N.ltb_spec (lenN buf - pos) (arg_bytes a)).
    + rewrite (proj2 (N.ltb_lt _ _)) by lia. now rewrite takeN_dropN.
    + rewrite (proj2 (N.ltb_ge _ _)) by lia. rewrite on_span_splice by lia.
      now rewrite sz_add_small by lia.
Qed.

(** longest fitting prefix of the arguments in [room] bytes *)
Fixpoint fit_prefix (args : list warg) (room : N) : list warg :=
  match args with
  | [] => []
  | a :: r => if arg_bytes a <=? room then a :: fit_prefix r (room - arg_bytes a) else []
  end.

Lemma fit_prefix_size args room : args_size (fit_prefix args room) <= room.
Proof.
  revert room; induction args as [|a r IH]; intros room; cbn [fit_prefix]; [cbn; lia|].
  destruct (N.leb_spec (arg_bytes a) room); [|cbn; lia].
  change (args_size (a :: fit_prefix r (room - arg_bytes a)))
    with (arg_bytes a + args_size (fit_prefix r (room - arg_bytes a))).
  specialize (IH (room - arg_bytes a)). lia.
Qed.
Lemma fit_prefix_all args room : args_size args <= room -> fit_prefix args room = args.
Proof.
  revert room; induction args as [|a r IH]; intros room; cbn [fit_prefix]; [easy|].
  change (args_size (a :: r)) with (arg_bytes a + args_size r). intros H.
  rewrite (proj2 (N.leb_le _ _)) by lia. now rewrite IH by lia.
Qed.
Lemma fit_prefix_ok args room : Forall arg_ok args -> Forall arg_ok (fit_prefix args room).
Proof.
  intros H. revert room. induction H as [|a r Ha _ IH]; intros room; cbn [fit_prefix]; [constructor|].
  destruct (arg_bytes a <=? room); constructor; [exact Ha|apply IH].
Qed.

Lemma try_write_char ev args : args <> [] -> Forall arg_ok args ->
  Forall (fun a => arg_bytes a < size_mod) args -> forall buf, lenN buf < size_mod ->
  try_write ev args buf =
    (splice buf 0 (enc_args ev (fit_prefix args (lenN buf))),
     Ok (if lenN buf <? args_size args then RErr wr_insufficient_buffer else RVal (args_size args))).
Proof.
  intros Hne Ha. induction Ha as [|a r Ha Hr IH]; [easy|]. intros Hs buf Hb.
  inversion Hs as [|a' r' Hsa Hsr]; subst a' r'.
  pose proof (lenN_enc_arg ev a Ha) as Hl.
  cbn [try_write]. rewrite try_write1_char by assumption.
  change (args_size (a :: r)) with (arg_bytes a + args_size r). cbn [fit_prefix].
  destruct (N.ltb_spec (lenN buf) (arg_bytes a)).
  - rewrite (proj2 (N.leb_gt _ _)) by lia. rewrite (proj2 (N.ltb_lt _ _)) by lia.
    unfold enc_args. cbn [map concat]. now rewrite splice_nil by lia.
  - rewrite (proj2 (N.leb_le _ _)) by lia.
    change (enc_args ev (a :: ?x)) with (enc_arg ev a ++ enc_args ev x).
    set (pre := fit_prefix r (lenN buf - arg_bytes a)).
    destruct r as [|b r'].
    + subst pre. cbn [fit_prefix]. unfold enc_args, args_size, sum. cbn [map concat fold_right].
      rewrite app_nil_r, N.add_0_r. rewrite (proj2 (N.ltb_ge _ _)) by lia. reflexivity.
    + rewrite arg_size_small by lia. unfold on_span. rewrite span_ok by (rewrite lenN_splice; lia).
      specialize (IH ltac:(easy) Hsr (dropN (arg_bytes a) (splice buf 0 (enc_arg ev a)))).
      rewrite lenN_dropN, lenN_splice in IH by lia. rewrite IH by lia. fold pre.
      assert (Hpre : lenN (enc_args ev pre) <= lenN buf - arg_bytes a).
      { rewrite lenN_enc_args by (apply fit_prefix_ok; exact Hr). apply fit_prefix_size. }
      assert (E : takeN (arg_bytes a) (splice buf 0 (enc_arg ev a)) ++
              splice (dropN (arg_bytes a) (splice buf 0 (enc_arg ev a))) 0 (enc_args ev pre)
              = splice buf 0 (enc_arg ev a ++ enc_args ev pre)).
      { rewrite on_span_splice by (rewrite lenN_splice; lia).
        rewrite <- splice_splice by lia. f_equal. lia. }
      rewrite E.
      destruct (N.ltb_spec (lenN buf - arg_bytes a) (args_size (b :: r'))).
      * rewrite (proj2 (N.ltb_lt _ _)) by lia. reflexivity.
      * rewrite (proj2 (N.ltb_ge _ _)) by lia. now rewrite sz_add_small by lia.
Qed.
