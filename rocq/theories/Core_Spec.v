(** What C63-C67 mean, independently of the model. *)
From Verif Require Import Base Result_Model Scope_Model Index_Model.

(** * result: a value or an error *)
Section ResultSpec.
Context {V E : Type}.
Variables (moved_v : V -> V) (moved_e : E -> E) (torn_v : V -> V -> V) (torn_e : E -> E -> E).
Variables (nothrow_v nothrow_e : bool).
Notation one := (V + E)%type.
Definition as_var (x : one) : var V E := match x with inl v => Val v | inr e => Err e end.
Definition sset (p : N -> one) (i : N) (x : one) : N -> one := fun k => if k =? i then x else p k.

(** A function's result stored in [i]; a function that throws changes nothing. *)
Definition sapply (r : outcome (var V E)) (i : N) (p : N -> one) : option (robs V E * (N -> one)) :=
  match r with
  | Ok (Val v) => Some (OUnit (Ok tt), sset p i (inl v))
  | Ok (Err e) => Some (OUnit (Ok tt), sset p i (inr e))
  | Ok Valueless => None
  | Throw e => Some (OUnit (Throw e), p)
  | UB => Some (OUnit UB, p) | Terminate => Some (OUnit Terminate, p) | Diverge => Some (OUnit Diverge, p)
  end.
(** [None]: a function that returns a valueless result, or a copy that throws while the
    alternative changes to one whose move may throw. *)
Definition rspec_step (o : rop V E) (p : N -> one) : option (robs V E * (N -> one)) :=
  match o with
  | ROfValue i v => Some (OUnit (Ok tt), sset p i (inl v))
  | ROfError i e => Some (OUnit (Ok tt), sset p i (inr e))
  | REmplace i v throws => Some (if throws then (OUnit Terminate, p) else (OUnit (Ok tt), sset p i (inl v)))
  | RCopy i j false => Some (OUnit (Ok tt), sset p i (p j))
  | RCopy i j true =>
      match p i, p j with
      | inl u, inl v => Some (OUnit (Throw user_exn), sset p i (inl (torn_v u v)))
      | inr u, inr e => Some (OUnit (Throw user_exn), sset p i (inr (torn_e u e)))
      | inl _, inr _ => if nothrow_e then Some (OUnit (Throw user_exn), p) else None
      | inr _, inl _ => if nothrow_v then Some (OUnit (Throw user_exn), p) else None
      end
  | RMove i j =>
      let left := match p j with inl v => inl (moved_v v) | inr e => inr (moved_e e) end in
      Some (OUnit (Ok tt), if i =? j then sset p j left else sset (sset p j left) i (p j))
  | RSwap i j => Some (OUnit (Ok tt), sset (sset p j (p i)) i (p j))
  | RWrite i v => Some (match p i with inl _ => (OUnit (Ok tt), sset p i (inl v)) | inr _ => (OUnit Terminate, p) end)
  | RTransform i f throws =>
      match p i with
      | inl v => sapply (f v) i p
      | inr _ => Some (OUnit (if throws then Throw user_exn else Ok tt), p)
      end
  | RTransformError i f throws =>
      match p i with
      | inr e => sapply (f e) i p
      | inl _ => Some (OUnit (if throws then Throw user_exn else Ok tt), p)
      end
  | ROk i => Some (OBool (match p i with inl _ => true | inr _ => false end), p)
  | RIsError i => Some (OBool (match p i with inl _ => false | inr _ => true end), p)
  | RValue i => Some (OValue (match p i with inl v => Ok v | inr _ => Terminate end), p)
  | RError i => Some (OError (match p i with inl _ => Terminate | inr e => Ok e end), p)
  | RValueOr i d => Some (OValue (Ok (match p i with inl v => v | inr _ => d end)), p)
  end.
(** The program goes on after a call that returned or threw. *)
Definition survived (x : robs V E) : bool :=
  match x with
  | OBool _ => true
  | OUnit (Ok _) | OUnit (Throw _) | OValue (Ok _) | OValue (Throw _) | OError (Ok _) | OError (Throw _) => true
  | OUnit _ | OValue _ | OError _ => false
  end.
Fixpoint rspec_run (ops : list (rop V E)) (p : N -> one) : option (list (robs V E) * (N -> one)) :=
  match ops with
  | [] => Some ([], p)
  | o :: ops' =>
      match rspec_step o p with
      | None => None
      | Some (x, p1) =>
          if survived x then match rspec_run ops' p1 with Some (xs, p2) => Some (x :: xs, p2) | None => None end
          else Some ([x], p1)
      end
  end.
(** The operations whose meaning is always defined if moves do not throw. *)
Definition never_valueless {A} (f : A -> outcome (var V E)) : Prop := forall a, f a <> Ok Valueless.
Definition regular (o : rop V E) : Prop :=
  match o with
  | RTransform _ f _ => never_valueless f
  | RTransformError _ f _ => never_valueless f
  | _ => True
  end.
End ResultSpec.

(** First [f], then [g] on its value. *)
Definition kleisli {V E S} (f g : @fn V E S V) : @fn V E S V := fun v s =>
  match f v s with
  | (Ok (Val w), s') => g w s'
  | r => r
  end.
(** The same for errors. *)
Definition kleisli_e {V E S} (f g : @fn V E S E) : @fn V E S E := fun e s =>
  match f e s with
  | (Ok (Err w), s') => g w s'
  | r => r
  end.
Definition lift_v {V E S} (f : V -> V) : @fn V E S V := fun v s => (Ok (Val (f v)), s).
Definition lift_e {V E S} (f : E -> E) : @fn V E S E := fun e s => (Ok (Err (f e)), s).

(** * Scope guards: [scope_exit f; rest] means [try { rest } finally { f }], and so on *)
Definition wanted (k : kind) (r : res) : bool :=
  match k, r with
  | KExit, _ => true
  | KSuccess, RThrown _ => false
  | KSuccess, _ => true
  | KFail, RThrown _ => true
  | KFail, _ => false
  end.
(** The scope is left, normally, by return or by an exception. *)
Definition scope_left (r : res) : bool :=
  match r with RNormal | RReturned | RThrown _ => true | RTerminated | RUB | RStuck | ROut => false end.
(** The guard a name refers to: the innermost. *)
Fixpoint bound_to (x : N) (env : list (N * N)) : option N :=
  match env with [] => None | (y, l) :: env' => if y =? x then Some l else bound_to x env' end.
(** The released guards, the next guard's number, and what happened (newest first). *)
Record istate := mk_is { is_released : list N; is_next : N; is_log : list gev }.
Definition is_event (e : gev) (s : istate) : istate := mk_is (is_released s) (is_next s) (e :: is_log s).
Definition is_in (x : N) (l : list N) : bool := existsb (N.eqb x) l.

Fixpoint ideal (p : prog) (env : list (N * N)) (s : istate) : res * istate :=
  match p with
  | PDone => (RNormal, s)
  | PEvent n rest => ideal rest env (is_event (EvStep n) s)
  | PThrow n => (RThrown n, s)
  | PReturn => (RReturned, s)
  | PGuard x k body rest =>
      let id := is_next s in
      let '(r, s1) := ideal rest ((x, id) :: env) (mk_is (is_released s) (id + 1) (EvMake id k :: is_log s)) in
      if scope_left r && negb (is_in id (is_released s1)) && wanted k r then
        let '(r2, s2) := ideal body env (is_event (EvRun id) s1) in
        match r2 with
        | RNormal | RReturned => (r, s2)
        | RThrown _ => (RTerminated, s2)
        | _ => (r2, s2)
        end
      else (r, s1)
  | PRelease x rest =>
      match bound_to x env with
      | None => (RStuck, s)
      | Some id => ideal rest env (if is_in id (is_released s) then s
                                   else mk_is (id :: is_released s) (is_next s) (EvRelease id :: is_log s))
      end
  | PAssign _ _ _ => (RStuck, s)     (* not part of this language *)
  | PBlock b rest =>
      let '(r, s1) := ideal b env s in
      match r with RNormal => ideal rest env s1 | _ => (r, s1) end
  | PTry b h rest =>
      let '(r, s1) := ideal b env s in
      match r with
      | RNormal => ideal rest env s1
      | RThrown _ => let '(r2, s2) := ideal h env s1 in
                     match r2 with RNormal => ideal rest env s2 | _ => (r2, s2) end
      | _ => (r, s1)
      end
  | PCall b rest =>
      let '(r, s1) := ideal b env s in
      match r with RNormal | RReturned => ideal rest env s1 | _ => (r, s1) end
  end.
Definition ideal_run (p : prog) : res * list gev :=
  let '(r, s) := ideal p [] (mk_is [] 0 []) in (r, rev (is_log s)).

(** No assignment between guards. *)
Fixpoint assign_free (p : prog) : bool :=
  match p with
  | PDone | PThrow _ | PReturn => true
  | PEvent _ r | PRelease _ r => assign_free r
  | PGuard _ _ a r | PBlock a r | PCall a r => assign_free a && assign_free r
  | PTry a h r => assign_free a && assign_free h && assign_free r
  | PAssign _ _ _ => false
  end.
(** No scope_success or scope_fail at all. *)
Fixpoint unconditional (p : prog) : bool :=
  match p with
  | PDone | PThrow _ | PReturn => true
  | PEvent _ r | PRelease _ r | PAssign _ _ r => unconditional r
  | PGuard _ k a r => match k with KExit => true | _ => false end && unconditional a && unconditional r
  | PBlock a r | PCall a r => unconditional a && unconditional r
  | PTry a h r => unconditional a && unconditional h && unconditional r
  end.
(** No scope_success or scope_fail inside the function of a guard that may run during
    unwinding. *)
Fixpoint none_while_unwinding (p : prog) : bool :=
  match p with
  | PDone | PThrow _ | PReturn => true
  | PEvent _ r | PRelease _ r | PAssign _ _ r => none_while_unwinding r
  | PGuard _ k a r => match k with KSuccess => none_while_unwinding a | _ => unconditional a end && none_while_unwinding r
  | PBlock a r | PCall a r => none_while_unwinding a && none_while_unwinding r
  | PTry a h r => none_while_unwinding a && none_while_unwinding h && none_while_unwinding r
  end.
(** The number of statements: a bound on the depth of the execution. *)
Fixpoint psize (p : prog) : nat :=
  match p with
  | PDone | PThrow _ | PReturn => 1
  | PEvent _ r | PRelease _ r | PAssign _ _ r => S (psize r)
  | PGuard _ _ a r | PBlock a r | PCall a r => S (psize a + psize r)
  | PTry a h r => S (psize a + psize h + psize r)
  end.

(** * index *)
(** The exact value of an index moved by an offset, and whether an index can hold it. *)
Definition exact (i : N) (off : Z) : Z := (Z.of_N i + off)%Z.
Definition fits (z : Z) : bool := ((0 <=? z) && (z <? 2 ^ 64))%Z.
Definition offset_ok (off : Z) : Prop := (- 2 ^ 63 <= off < 2 ^ 63)%Z.
Definition failed {A} (b : build) (r : outcome A) : Prop :=
  match b with DebugAbort => r = Terminate | DebugThrow => r = Throw logic_error | Release => False end.
(** The call returns [x] if that is possible, and fails its assertion otherwise. *)
Definition reported {A} (b : build) (ok : bool) (r : outcome A) (x : A) : Prop :=
  if ok then r = Ok x else failed b r.

(** What happened to guard [id]: its creation, release and runs. *)
Definition about (id : N) (l : list gev) : list gev :=
  filter (fun e => match e with EvStep _ => false | EvMake i _ | EvRelease i | EvRun i => i =? id end) l.

(** How many functions have been run, and how many guards created. *)
Definition runs (log : list gev) : nat := List.length (filter (fun e => match e with EvRun _ => true | _ => false end) log).
Definition makes (log : list gev) : nat := List.length (filter (fun e => match e with EvMake _ _ => true | _ => false end) log).
(** Every guard is a scope_exit and none is released. *)
Fixpoint only_exit (p : prog) : bool :=
  match p with
  | PDone | PThrow _ | PReturn => true
  | PEvent _ r | PAssign _ _ r => only_exit r
  | PRelease _ _ => false
  | PGuard _ k b r => match k with KExit => true | _ => false end && only_exit b && only_exit r
  | PBlock b r | PCall b r => only_exit b && only_exit r
  | PTry b h r => only_exit b && only_exit h && only_exit r
  end.
