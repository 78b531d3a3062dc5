(** C104. *)
From Coq Require Import List. Import ListNotations.
From Flocq Require Import Core.FLX IEEE754.BinarySingleNaN.
From Verif Require Import Base Iter_Model Sv_Model Ident_Model IdentMove_Model SvIter_Model Frag_Model Index_Model
  Range_Model Float_Model Single_Model Long_Model Range_Spec Builds_Spec Builds_Proofs.

(** C104.  Whatever a debug build computes without reporting a failed assertion, a release
    build computes too.  Fragment strings: every member, and loops over their iterators ... *)
Theorem C104_fragments_partial : forall (fs os : frags) (s dest : list N) ct c pos count n (off : Z) (i j : iter) fuel,
  agrees (fun b => it_deref b fs i) /\ agrees (fun b => it_inc b fs i) /\ agrees (fun b => it_dec b fs i) /\
  agrees (fun b => seek b fs i off) /\ agrees (fun b => seek_minus b fs i off) /\ agrees (fun b => next b fs i n) /\
  agrees (fun b => collect fuel b fs i j) /\ agrees (fun b => rcollect fuel b fs i j) /\
  agrees (fun b => subscript b fs pos) /\ agrees (fun b => at_pos b fs pos) /\
  agrees (fun b => front b fs) /\ agrees (fun b => back b fs) /\
  agrees (fun b => compare_fs b ct fs os) /\ agrees (fun b => compare_sv b ct fs s) /\
  agrees (fun b => starts_with_char b fs c) /\ agrees (fun b => ends_with_char b fs c) /\
  agrees (fun b => starts_with b fs os) /\ agrees (fun b => ends_with b fs os) /\
  agrees (fun b => find_sv b fs s pos) /\ agrees (fun b => contains_sv b fs s) /\ agrees (fun b => contains_fs b fs os) /\
  agrees (fun b => substr b fs pos count) /\ agrees (fun b => Frag_Model.copy b fs dest count pos).
Proof. exact fragments_agree. Qed.
Print Assumptions C104_fragments_partial.

(** ... programs over static_vectors, over collections, and over collections that are moved ... *)
Theorem C104_vectors_partial : forall V b cap (moved : V -> V) veq ops p,
  same_until (fun x _ => vector_failure b x) (sv_run b cap moved veq ops p) (sv_run Release cap moved veq ops p).
Proof. exact @vectors_agree. Qed.
Print Assumptions C104_vectors_partial.
Theorem C104_collections_partial : forall b ops c,
  same_until (fun x _ => collection_failure b x) (ic_run b ops c) (ic_run Release ops c).
Proof. exact collections_agree. Qed.
Print Assumptions C104_collections_partial.
Theorem C104_moves_partial : forall b ops s,
  same_until (fun x _ => exists y, x = Some y /\ collection_failure b y) (mrun b ops s) (mrun Release ops s).
Proof. exact moves_agree. Qed.
Print Assumptions C104_moves_partial.
(** ... programs over kept iterators, where it[n] can let std::bad_optional_access out in the
    build whose assertions throw and calls std::terminate in the others ... *)
Theorem C104_iterators_partial : forall V b cap (moved : V -> V) veq ops s,
  same_until (fun x y => iterator_failure b x \/ let_out b x y) (iv_run b cap moved veq ops s) (iv_run Release cap moved veq ops s).
Proof. exact (fun V b cap moved veq => held_agree veq cap moved b). Qed.
Print Assumptions C104_iterators_partial.

(** ... index, except for the offset that cannot be negated ... *)
Theorem C104_index_partial : forall i off,
  agrees (fun b => ix_inc b i) /\ agrees (fun b => ix_post_inc b i) /\
  agrees (fun b => ix_dec b i) /\ agrees (fun b => ix_post_dec b i) /\
  (off <> - 2 ^ 63 ->
   agrees (fun b => ix_add_assign b i off) /\ agrees (fun b => ix_sub_assign b i off) /\
   agrees (fun b => ix_add b i off) /\ agrees (fun b => ix_sub b i off))%Z.
Proof. exact index_agrees. Qed.
Print Assumptions C104_index_partial.

(** ... and ranges, except for an open end moved to the extreme value of a signed type of at
    least 32 bits. *)
Theorem C104_ranges_partial : forall T (cmp : T -> T -> option comparison) (x y : T) (r s : vrange T) l rs,
  agrees (fun b => vr_make cmp b x y) /\ agrees (fun b => overlap cmp b r s) /\
  agrees (fun b => envelope cmp b x l) /\ agrees (fun b => envelope_range cmp b l) /\
  agrees (fun b => envelope_ranges cmp b r rs).
Proof. exact @ranges_agree. Qed.
Print Assumptions C104_ranges_partial.
Theorem C104_numbers_partial : forall t lk hk (r : vrange Z) x, usual t -> z_ok t x ->
  agrees (fun b => vr_size b t r) /\ agrees (fun b => vr_mid b t r) /\ agrees (fun b => int_default_bounds b t) /\
  ((lk = opened -> it_signed t = true -> (32 <= it_bits t)%Z -> x <> it_hi t) ->
   agrees (fun b => set_min zcmp b lk hk (int_next t) r x)) /\
  ((hk = opened -> it_signed t = true -> (32 <= it_bits t)%Z -> x <> it_lo t) ->
   agrees (fun b => set_max zcmp b lk hk (int_prev t) r x)).
Proof. exact numbers_agree. Qed.
Print Assumptions C104_numbers_partial.
Theorem C104_floats_partial : forall prec emax (Hp : Prec_gt_0 prec) (He : Prec_lt_emax prec emax) lk hk r (x : binary_float prec emax),
  agrees (fun b => flt_set_min b lk hk r x) /\ agrees (fun b => flt_set_max b lk hk r x) /\
  agrees (fun b => @flt_default_bounds prec emax Hp He b) /\
  (forall r, agrees (fun b => vr_size_double b r) /\ agrees (fun b => vr_mid_double b r)) /\
  (forall r, agrees (fun b => vr_size_float b r) /\ agrees (fun b => vr_mid_float b r)) /\
  (forall r : vrange (binary_float prec emax), agrees (fun b => vr_size_long b r) /\ agrees (fun b => vr_mid_long b r)).
Proof. exact floats_agree. Qed.
Print Assumptions C104_floats_partial.

(** The exceptions.  i += PTRDIFF_MIN is defined in a release build, wraps, and is undefined
    in a debug build, whose assertion negates the offset. *)
Theorem C104_index_refuted : exists off, forall i,
  ix_add_assign Release i off = Ok (sz_add i (2 ^ 63)) /\ ix_sub_assign Release i off = Ok (sz_sub i (2 ^ 63)) /\
  forall b, b <> Release -> ix_add_assign b i off = UB /\ ix_sub_assign b i off = UB.
Proof. exact (ex_intro _ (- 2 ^ 63)%Z ix_min_offset). Qed.
Print Assumptions C104_index_refuted.
(** Likewise an open range whose end is moved to INT_MAX. *)
Theorem C104_setter_refuted : exists t x, forall hk r, usual t /\ z_ok t x /\
  set_min zcmp Release opened hk (int_next t) r x = Ok (VR x (vmax r)) /\
  forall b, b <> Release -> set_min zcmp b opened hk (int_next t) r x = UB.
Proof. exact setter_differs. Qed.
Print Assumptions C104_setter_refuted.
(** A kept iterator of a vector that an empty vector was assigned to: it[0] ends a release program, and throws in
    the build whose assertions throw, though no assertion failed. *)
Theorem C104_iterators_refuted : exists ops : list (SvIter_Model.iop N), forall moved veq,
  let debug := fst (iv_run DebugThrow 4 moved veq ops (iv_start 4)) in
  let release := fst (iv_run Release 4 moved veq ops (iv_start 4)) in
  exists before, debug = before ++ [OElem (Throw user_exn)] /\ release = before ++ [OElem Terminate].
Proof. exact subscript_differs. Qed.
Print Assumptions C104_iterators_refuted.

(** A failed assertion really ends a call that is well defined in a release build. *)
Example C104_nonvacuous :
  it_inc DebugAbort [Some [1; 2]] (It 0 2) = Terminate /\ it_inc Release [Some [1; 2]] (It 0 2) = UB /\
  subscript DebugThrow [Some [1; 2]; Some [3]] 2 = Ok 3 /\ subscript Release [Some [1; 2]; Some [3]] 2 = Ok 3 /\
  vr_make zcmp DebugThrow 3%Z 2%Z = Throw logic_error /\ vr_make zcmp Release 3%Z 2%Z = Ok (VR 3 2)%Z /\
  ix_dec DebugAbort 0 = Terminate /\ ix_dec Release 0 = Ok (2 ^ 64 - 1) /\
  fst (ic_run DebugThrow [IEmplace (mk_item 1 5) (mk_allocs true true false); ITryInsert (mk_item 2 7) all_ok; ISize] ic_empty_coll)
  = [ROk (Throw bad_alloc); RBool (Throw logic_error); RNum 2] /\
  fst (ic_run Release [IEmplace (mk_item 1 5) (mk_allocs true true false); ITryInsert (mk_item 2 7) all_ok; ISize] ic_empty_coll)
  = [ROk (Throw bad_alloc); RBool (Ok true); RNum 2].
Proof. vm_compute. repeat split. Qed.
