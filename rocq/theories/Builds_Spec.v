(** What C104 means: a build with assertions ends every call the way the build without
    them does, or reports a failed assertion. *)
From Coq Require Import List. Import ListNotations.
From Verif Require Import Base Sv_Model Ident_Model SvIter_Model.

(** How a failed assertion ends a call: by abort(), or by an exception, which ends the
    program if a function marked noexcept lets it out. *)
Definition assertion_failed {A} (b : build) (r : outcome A) : Prop :=
  match b with
  | Release => False
  | DebugAbort => r = Terminate
  | DebugThrow => r = Throw logic_error \/ r = Terminate
  end.

(** [f b]: the call in build [b]. *)
Definition agrees {A} (f : build -> outcome A) : Prop := forall b, f b = f Release \/ assertion_failed b (f b).

(** The same for whole programs.  Two runs, observations and final state, are the same;
    or the observations are the same up to one which [excused] accepts. *)
Definition same_until {O S} (excused : O -> O -> Prop) (debug release : list O * S) : Prop :=
  debug = release
  \/ exists common x y rest rest',
       fst debug = common ++ x :: rest /\ fst release = common ++ y :: rest' /\ excused x y.

(** Observations of programs over static_vectors, over collections and over kept iterators
    that are a failed assertion. *)
Definition vector_failure {V} (b : build) (x : sobs V) : Prop :=
  match x with
  | ODone r => assertion_failed b r | OBool r => assertion_failed b r | OVal r => assertion_failed b r
  | OList r => assertion_failed b r | ONum _ => False
  end.
Definition collection_failure (b : build) (x : Ident_Model.iobs) : Prop :=
  match x with
  | ROk r => assertion_failed b r | RBool r => assertion_failed b r | RBools r => assertion_failed b r
  | RItem r => assertion_failed b r | RMaybe r => assertion_failed b r | RItems r => assertion_failed b r
  | RNum _ => False
  end.
Definition iterator_failure {V} (b : build) (x : SvIter_Model.iobs V) : Prop :=
  match x with
  | OVec o => vector_failure b o
  | OMove r => assertion_failed b r | OElem r => assertion_failed b r | ODist r => assertion_failed b r
  | OComp r => assertion_failed b r | OSame r => assertion_failed b r
  end.
(** The one other difference: an exception which the other builds do not let out. *)
Definition let_out {V} (b : build) (x y : SvIter_Model.iobs V) : Prop :=
  b = DebugThrow /\ x = OElem (Throw user_exn) /\ y = OElem Terminate.
