(** C63-C67: result, scope guards, index. *)
From Coq Require Import List. Import ListNotations.
From Verif Require Import Base Result_Model Scope_Model Index_Model Core_Spec Result_Proofs Scope_Proofs ScopeOnce_Proofs ScopeAssign_Proofs Index_Proofs.

(** C63.  Programs over any number of results see exactly what they would see if each were
    a value or an error ([rspec_run]); reading the wrong one terminates ... *)
Theorem C63_value_or_error_partial : forall (V E : Type) moved_v moved_e torn_v torn_e nothrow_v nothrow_e (v0 : V) (ops : list (rop V E)) xs q,
  rspec_run moved_v moved_e torn_v torn_e nothrow_v nothrow_e ops (fun _ => inl v0) = Some (xs, q) ->
  exists p, r_run moved_v moved_e torn_v torn_e nothrow_v nothrow_e ops (r_start v0) = (xs, p) /\ forall i, p i = as_var (q i).
Proof. exact @result_refines. Qed.
Print Assumptions C63_value_or_error_partial.
(** ... and this covers every program, including copies that throw, if the element types
    have moves that do not throw ... *)
Theorem C63_all_programs_partial : forall (V E : Type) moved_v moved_e torn_v torn_e (v0 : V) (ops : list (rop V E)),
  Forall regular ops -> exists xs q, rspec_run moved_v moved_e torn_v torn_e true true ops (fun _ => inl v0) = Some (xs, q).
Proof. exact result_always. Qed.
Print Assumptions C63_all_programs_partial.
(** ... but if they may throw, a copy assignment that throws leaves a result that says it
    is an error and has none. *)
Theorem C63_valueless_refuted : exists p, r_run (fun v : N => v) (fun e : N => e) (fun u _ => u) (fun u _ => u) true false
    [ROfValue 0 1; ROfError 1 2; RCopy 0 1 true; ROk 0; RIsError 0; RValueOr 0 9; RError 0] (r_start 0) =
  ([OUnit (Ok tt); OUnit (Ok tt); OUnit (Throw user_exn); OBool false; OBool true; OValue (Ok 9); OError Terminate], p).
Proof. exact (ex_intro _ _ eq_refl). Qed.
Print Assumptions C63_valueless_refuted.
Example C63_nonvacuous : exists q, rspec_run (fun v : N => v + 100) (fun e : N => e) (fun u _ => u) (fun u _ => u) true true
    [ROfValue 0 1; ROfError 1 2; RSwap 0 1; RError 0; RValue 1; RCopy 0 1 true; RTransform 1 (fun v => Ok (Err (v + 4))) false; RMove 2 0; RMove 3 3; RValue 3;
     RTransformError 1 (fun e => Throw bad_alloc) false; RIsError 1; RValueOr 1 7; REmplace 1 3 false; RWrite 1 5; RValue 1; RValue 0] (fun _ => inl 0) =
  Some ([OUnit (Ok tt); OUnit (Ok tt); OUnit (Ok tt); OError (Ok 2); OValue (Ok 1); OUnit (Throw user_exn); OUnit (Ok tt); OUnit (Ok tt); OUnit (Ok tt); OValue (Ok 100);
         OUnit (Throw bad_alloc); OBool true; OValue (Ok 7); OUnit (Ok tt); OUnit (Ok tt); OValue (Ok 5); OValue Terminate], q) /\ q 2 = inr 2.
Proof. eexists. split; [vm_compute; reflexivity|]. reflexivity. Qed.

(** C64.  The functions may throw and have side effects on a state, so the laws also say
    how often and in which order they are called. *)
Theorem C64_left_identity : forall (V E S : Type) (v : V) (f : @fn V E S V) c s, r_and_then (r_of_value v) f c s = f v s.
Proof. exact @left_identity. Qed.
Print Assumptions C64_left_identity.
Theorem C64_right_identity : forall (V E S : Type) (r : var V E) (s : S),
  r_and_then r (fun v s => (Ok (r_of_value v), s)) false s = (Ok r, s).
Proof. exact @right_identity. Qed.
Print Assumptions C64_right_identity.
Theorem C64_associativity : forall (V E S : Type) (r : var V E) (f g : @fn V E S V) (s : S),
  match r_and_then r f false s with (Ok t, s') => r_and_then t g false s' | x => x end = r_and_then r (kleisli f g) false s.
Proof. exact @associativity. Qed.
Print Assumptions C64_associativity.
Theorem C64_errors_propagate : forall (V E S : Type) (mv : V -> V) (me : E -> E) e (f : @fn V E S V) (s : S),
  r_and_then (r_of_error e) f false s = (Ok (r_of_error e), s) /\
  forall r0 : var V E, r0 = r_of_error e -> r_transform mv me r0 f false s = (Ok tt, r0, s).
Proof. exact @error_propagates. Qed.
Print Assumptions C64_errors_propagate.
Theorem C64_values_propagate : forall (V E S : Type) (mv : V -> V) (me : E -> E) v (h : @fn V E S E) (s : S),
  r_or_else (r_of_value v) h false s = (Ok (r_of_value v), s) /\
  forall r0 : var V E, r0 = r_of_value v -> r_transform_error mv me r0 h false s = (Ok tt, r0, s).
Proof. exact @value_propagates. Qed.
Print Assumptions C64_values_propagate.
Theorem C64_or_else_left_identity : forall (V E S : Type) (e : E) (h : @fn V E S E) c s, r_or_else (r_of_error e) h c s = h e s.
Proof. exact @left_identity_e. Qed.
Print Assumptions C64_or_else_left_identity.
Theorem C64_or_else_right_identity : forall (V E S : Type) (r : var V E) (s : S), r <> Valueless ->
  r_or_else r (fun e s => (Ok (r_of_error e), s)) false s = (Ok r, s).
Proof. exact @right_identity_e. Qed.
Print Assumptions C64_or_else_right_identity.
(** A valueless result (C63_valueless_refuted) passes through and_then; or_else ends the program without calling the function. *)
Theorem C64_valueless : forall (V E S : Type) (mv : V -> V) (me : E -> E) (f : @fn V E S V) (h : @fn V E S E) c (s : S),
  r_and_then Valueless f c s = (if c then Throw user_exn else Ok Valueless, s) /\ r_or_else Valueless h c s = (Terminate, s) /\
  snd (fst (r_transform mv me Valueless f c s)) = Valueless /\
  fst (fst (r_transform_error mv me Valueless h c s)) = Terminate.
Proof. exact @valueless_laws. Qed.
Print Assumptions C64_valueless.
Theorem C64_or_else_associativity : forall (V E S : Type) (r : var V E) (h k : @fn V E S E) (s : S), (forall e s s', h e s <> (Ok Valueless, s')) ->
  match r_or_else r h false s with (Ok t, s') => r_or_else t k false s' | x => x end = r_or_else r (kleisli_e h k) false s.
Proof. exact @associativity_e. Qed.
Print Assumptions C64_or_else_associativity.
(** transform and transform_error store the new result; if that throws nothing changes. *)
Theorem C64_transform : forall (V E S : Type) (mv : V -> V) (me : E -> E) (r : var V E) (f : @fn V E S V) c (s : S),
  r_transform mv me r f c s = match r_and_then r f c s with
                              | (Ok t, s') => (Ok tt, t, s')
                              | (o, s') => (omap (fun _ => tt) o, r, s')
                              end.
Proof. exact @transform_spec. Qed.
Print Assumptions C64_transform.
Theorem C64_transform_error : forall (V E S : Type) (mv : V -> V) (me : E -> E) (r : var V E) (h : @fn V E S E) c (s : S),
  r_transform_error mv me r h c s = match r_or_else r h c s with
                              | (Ok t, s') => (Ok tt, t, s')
                              | (o, s') => (omap (fun _ => tt) o, r, s')
                              end.
Proof. exact @transform_error_spec. Qed.
Print Assumptions C64_transform_error.
Theorem C64_functor_identity : forall (V E S : Type) (mv : V -> V) (me : E -> E) (r : var V E) (s : S),
  r_transform mv me r (lift_v (fun v => v)) false s = (Ok tt, r, s).
Proof. exact @functor_id. Qed.
Print Assumptions C64_functor_identity.
Theorem C64_functor_composition : forall (V E S : Type) (mv : V -> V) (me : E -> E) (r : var V E) (a b : V -> V) (s : S),
  (let '(x, r1, s1) := r_transform mv me r (lift_v a) false s in r_transform mv me r1 (lift_v b) false s1) =
  r_transform mv me r (lift_v (fun v => b (a v))) false s.
Proof. exact @functor_compose. Qed.
Print Assumptions C64_functor_composition.
Theorem C64_error_functor_identity : forall (V E S : Type) (mv : V -> V) (me : E -> E) (r : var V E) (s : S), r <> Valueless ->
  r_transform_error mv me r (lift_e (fun e => e)) false s = (Ok tt, r, s).
Proof. exact @functor_id_e. Qed.
Print Assumptions C64_error_functor_identity.
Theorem C64_error_functor_composition : forall (V E S : Type) (mv : V -> V) (me : E -> E) (r : var V E) (a b : E -> E) (s : S),
  (let '(x, r1, s1) := r_transform_error mv me r (lift_e a) false s in r_transform_error mv me r1 (lift_e b) false s1) =
  r_transform_error mv me r (lift_e (fun e => b (a e))) false s.
Proof. exact @functor_compose_e. Qed.
Print Assumptions C64_error_functor_composition.
(** The state here is the list of calls: and_then calls once on a value, never on an error. *)
Example C64_nonvacuous : let f : @fn N N (list N) N := fun v s => (if v <? 5 then Ok (Val (v + 1)) else Throw bad_alloc, v :: s) in
  r_and_then (Val 3) f false [] = (Ok (Val 4), [3]) /\ r_and_then (Err 3) f false [] = (Ok (Err 3), []) /\
  r_transform (fun v => v) (fun e => e) (Val 7) f false [] = (Throw bad_alloc, Val 7, [7]) /\ Val 3 <> @Valueless N N.
Proof. repeat split; discriminate. Qed.

(** C65.  Programs without assignments between guards, and without scope_success and
    scope_fail inside functions that may run during unwinding, behave as if
    [scope_exit f; rest] were [try { rest } finally { f }], and so on ([ideal_run]):
    same result, same events in the same order, same functions run. *)
Theorem C65_try_finally_partial : forall p fuel, (psize p <= fuel)%nat -> assign_free p = true -> none_while_unwinding p = true ->
  run_guards fuel p = ideal_run p.
Proof. exact guards_like_finally. Qed.
Print Assumptions C65_try_finally_partial.
(** In any program without assignments: a guard's function runs at most once, not after
    release(), and a scope_exit's function runs if it is not released and its scope is left. *)
Theorem C65_history_partial : forall p fuel r log id, assign_free p = true -> run_guards fuel p = (r, log) ->
  about id log = [] \/ exists k,
    (about id log = [EvMake id k] /\ (scope_left r = true -> k <> KExit)) \/
    about id log = [EvMake id k; EvRun id] \/ about id log = [EvMake id k; EvRelease id].
Proof. exact guard_history. Qed.
Print Assumptions C65_history_partial.
(** Inside a function that runs during unwinding, scope_success does not run although its
    scope is left normally, and scope_fail runs although no exception leaves its scope. *)
Theorem C65_during_unwinding_refuted : exists p,
  p = PTry (PGuard 0 KExit (PCall (PGuard 1 KSuccess (PEvent 1 PDone) (PGuard 2 KFail (PEvent 2 PDone) (PEvent 0 PDone))) PDone) (PThrow 9)) PDone PDone /\ assign_free p = true /\
  run_guards (psize p) p = (RNormal, [EvMake 0 KExit; EvRun 0; EvMake 1 KSuccess; EvMake 2 KFail; EvStep 0; EvRun 2; EvStep 2]) /\
  ideal_run p = (RNormal, [EvMake 0 KExit; EvRun 0; EvMake 1 KSuccess; EvMake 2 KFail; EvStep 0; EvRun 1; EvStep 1]).
Proof. exact (ex_intro _ _ (conj eq_refl (conj eq_refl (conj eq_refl eq_refl)))). Qed.
Print Assumptions C65_during_unwinding_refuted.
Example C65_nonvacuous : let p := PCall (PGuard 0 KExit (PEvent 1 PDone) (PGuard 1 KSuccess (PEvent 2 (PGuard 9 KFail PDone PReturn)) (PGuard 2 KFail (PEvent 3 PDone)
     (PTry (PGuard 3 KExit (PEvent 4 PDone) (PGuard 4 KFail (PTry (PGuard 5 KExit (PEvent 5 PDone) (PThrow 2)) (PEvent 6 PDone) PDone) (PRelease 2 (PThrow 1)))) (PEvent 7 PReturn) PDone)))) PDone in
  assign_free p = true /\ none_while_unwinding p = true /\
  filter (fun e => match e with EvStep _ => true | _ => false end) (snd (run_guards (psize p) p)) = map EvStep [5; 6; 4; 7; 2; 1] /\
  fst (run_guards (psize p) p) = RNormal.
Proof. vm_compute. repeat split. Qed.

(** C66.  Assignment between guards: the target's function is lost and the source's runs
    twice ... *)
Theorem C66_assignment_refuted : exists p, p = PGuard 0 KExit (PEvent 10 PDone) (PGuard 1 KExit (PEvent 11 PDone) (PAssign 0 1 PDone)) /\
  run_guards (psize p) p = (RNormal, [EvMake 0 KExit; EvMake 1 KExit; EvRun 1; EvStep 11; EvRun 1; EvStep 11]).
Proof. exact (ex_intro _ _ (conj eq_refl eq_refl)). Qed.
Print Assumptions C66_assignment_refuted.
(** ... without assignments no function runs twice, and none of a scope_exit is lost. *)
Theorem C66_without_assignment_partial : forall p fuel r log id, assign_free p = true -> run_guards fuel p = (r, log) ->
  about id log = [] \/ exists k,
    (about id log = [EvMake id k] /\ (scope_left r = true -> k <> KExit)) \/
    about id log = [EvMake id k; EvRun id] \/ about id log = [EvMake id k; EvRelease id].
Proof. exact guard_history. Qed.
Print Assumptions C66_without_assignment_partial.
(** ... and with them, at any moment, no more functions have run than guards were created,
    and only functions some guard was created with ... *)
Theorem C66_runs_bounded_partial : forall p fuel r log, run_guards fuel p = (r, log) ->
  forall n, (runs (firstn n log) <= makes (firstn n log))%nat.
Proof. exact never_more_runs. Qed.
Print Assumptions C66_runs_bounded_partial.
Theorem C66_runs_created_partial : forall p fuel r log, run_guards fuel p = (r, log) ->
  forall a id b, log = a ++ EvRun id :: b -> exists k, In (EvMake id k) a.
Proof. exact runs_what_was_made. Qed.
Print Assumptions C66_runs_created_partial.
(** ... exactly as many as guards, if all are scope_exits and none is released. *)
Theorem C66_one_run_per_guard_partial : forall p fuel r log, only_exit p = true -> run_guards fuel p = (r, log) -> scope_left r = true ->
  runs log = makes log.
Proof. exact one_run_per_guard. Qed.
Print Assumptions C66_one_run_per_guard_partial.
Example C66_nonvacuous : exists p log, p = PGuard 0 KExit (PEvent 10 PDone) (PTry (PGuard 1 KExit (PGuard 2 KExit PDone PDone) (PAssign 1 0 (PThrow 3))) PDone PDone) /\
  only_exit p = true /\ run_guards (psize p) p = (RNormal, log) /\ runs log = 2%nat.
Proof. exact (ex_intro _ _ (ex_intro _ _ (conj eq_refl (conj eq_refl (conj eq_refl eq_refl))))). Qed.

(** C67.  Release builds: exact modulo 2^64 ... *)
Theorem C67_release : forall i off, i < 2 ^ 64 ->
  ix_add_assign Release i off = Ok (Z.to_N (exact i off mod 2 ^ 64)) /\
  ix_add Release i off = Ok (Z.to_N (exact i off mod 2 ^ 64)) /\
  ix_sub_assign Release i off = Ok (Z.to_N (exact i (- off) mod 2 ^ 64)) /\
  ix_sub Release i off = Ok (Z.to_N (exact i (- off) mod 2 ^ 64)) /\
  ix_inc Release i = Ok (Z.to_N (exact i 1 mod 2 ^ 64)) /\
  ix_dec Release i = Ok (Z.to_N (exact i (-1) mod 2 ^ 64)) /\
  ix_post_inc Release i = Ok (i, Z.to_N (exact i 1 mod 2 ^ 64)) /\
  ix_post_dec Release i = Ok (i, Z.to_N (exact i (-1) mod 2 ^ 64)).
Proof. exact release_exact. Qed.
Print Assumptions C67_release.
(** ... debug builds: exact or reported, for every offset but the most negative ... *)
Theorem C67_debug_partial : forall b i off, b <> Release -> i < 2 ^ 64 -> offset_ok off -> (off <> - 2 ^ 63)%Z ->
  reported b (fits (exact i off)) (ix_add_assign b i off) (Z.to_N (exact i off)) /\
  reported b (fits (exact i off)) (ix_add b i off) (Z.to_N (exact i off)) /\
  reported b (fits (exact i (- off))) (ix_sub_assign b i off) (Z.to_N (exact i (- off))) /\
  reported b (fits (exact i (- off))) (ix_sub b i off) (Z.to_N (exact i (- off))).
Proof. exact debug_exact. Qed.
Print Assumptions C67_debug_partial.
Theorem C67_debug_steps : forall b i, b <> Release -> i < 2 ^ 64 ->
  reported b (fits (exact i 1)) (ix_inc b i) (Z.to_N (exact i 1)) /\
  reported b (fits (exact i (-1))) (ix_dec b i) (Z.to_N (exact i (-1))) /\
  reported b (fits (exact i 1)) (ix_post_inc b i) (i, Z.to_N (exact i 1)) /\
  reported b (fits (exact i (-1))) (ix_post_dec b i) (i, Z.to_N (exact i (-1))).
Proof. exact debug_steps. Qed.
Print Assumptions C67_debug_steps.
(** ... for which the assertion itself is undefined, even where the result fits ... *)
Theorem C67_most_negative_refuted : exists i, fits (exact i (- 2 ^ 63)) = true /\ ix_add DebugThrow i (- 2 ^ 63) = UB /\
  ix_add Release i (- 2 ^ 63) = Ok 0.
Proof. exact (ex_intro _ (2 ^ 63) (conj eq_refl (conj eq_refl eq_refl))). Qed.
Print Assumptions C67_most_negative_refuted.
Theorem C67_most_negative_partial : forall b i, b <> Release ->
  ix_add b i (- 2 ^ 63) = UB /\ ix_add_assign b i (- 2 ^ 63) = UB /\ ix_sub b i (- 2 ^ 63) = UB /\ ix_sub_assign b i (- 2 ^ 63) = UB.
Proof. exact debug_min. Qed.
Print Assumptions C67_most_negative_partial.
(** ... and what was added can be subtracted again. *)
Theorem C67_add_sub : forall b i off j, i < 2 ^ 64 -> offset_ok off -> ix_add b i off = Ok j -> ix_sub b j off = Ok i.
Proof. exact add_sub. Qed.
Print Assumptions C67_add_sub.
Example C67_nonvacuous : ix_add DebugThrow 5 (-6) = Throw logic_error /\ ix_add DebugAbort 5 (-5) = Ok 0 /\ ix_add Release 5 (-6) = Ok (2 ^ 64 - 1) /\
  ix_sub DebugThrow (2 ^ 64 - 3) (-2) = Ok (2 ^ 64 - 1) /\ ix_sub DebugThrow (2 ^ 64 - 3) (-3) = Throw logic_error /\ offset_ok (-6).
Proof. repeat split; discriminate. Qed.
