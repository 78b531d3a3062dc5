(** C139: chains of results. *)
From Coq Require Import List. Import ListNotations.
From Verif Require Import Base Result_Model ResultChain_Spec ResultChain_Proofs.

(** A chain of and_then calls the functions in order, each with the value the one before gave, up to and including the first that does
    not give a value; no function after that is called, and what it gave comes out. *)
Theorem C139_and_then : forall {V E} (fs : list (stage (V := V) (E := E) V)) (v : V),
  (exists args w, all_pass fs v args w /\ then_chain 0 fs (Val v) [] = (Ok (Val w), numbered args)) \/
  (exists before f t after args w out, fs = before ++ (f, t) :: after /\ all_pass before v args w /\ ~ is_value (f w) /\
     then_chain 0 fs (Val v) [] = (out, numbered (args ++ [w])) /\ passed_on (f w) after out).
Proof. exact @then_thm. Qed.
Print Assumptions C139_and_then.
(** With an error to begin with no function is called. *)
Theorem C139_error_first : forall {V E} (fs : list (stage (V := V) (E := E) V)) (r : var V E),
  r_is_error r = true -> exists out, then_chain 0 fs r [] = (out, []) /\ passed_on (Ok r) fs out.
Proof. exact @skip_thm. Qed.
Print Assumptions C139_error_first.
(** A chain of or_else tries one way after the other up to and including the first that does not give an error. *)
Theorem C139_or_else : forall {V E} (fs : list (stage (V := V) (E := E) E)), Forall (fun s => forall e, fst s e <> Ok Valueless) fs -> forall (e : E),
  (exists args w, all_fail fs e args w /\ else_chain 0 fs (Err e) [] = (Ok (Err w), numbered args)) \/
  (exists before f t after args w out, fs = before ++ (f, t) :: after /\ all_fail before e args w /\ ~ is_err (f w) /\
     else_chain 0 fs (Err e) [] = (out, numbered (args ++ [w])) /\ passed_on (f w) after out).
Proof. exact @else_thm. Qed.
Print Assumptions C139_or_else.
Theorem C139_value_first : forall {V E} (fs : list (stage (V := V) (E := E) E)) (v : V),
  exists out, else_chain 0 fs (Val v) [] = (out, []) /\ passed_on (Ok (Val v)) fs out.
Proof. exact @skip_else_thm. Qed.
Print Assumptions C139_value_first.
(** A chain can be cut anywhere, and the first part kept in a variable. *)
Theorem C139_cut : forall {V E} (fs gs : list (stage (V := V) (E := E) V)) k (r : var V E) calls,
  then_chain k (fs ++ gs) r calls =
  match then_chain k fs r calls with (Ok r', calls') => then_chain (k + length fs) gs r' calls' | other => other end.
Proof. exact @app_chain. Qed.
Print Assumptions C139_cut.
(** A chain of transform makes the same calls and ends the same way; the object then has the result, or, if an exception was thrown,
    the result of the calls before. *)
Theorem C139_transform : forall {V E} mv me (fs : list (stage (V := V) (E := E) V)) k (r : var V E) calls,
  match then_chain k fs r calls with
  | (Ok r', calls') => transform_chain mv me k fs r calls = (Ok tt, r', calls')
  | (Throw x, calls') => exists r', transform_chain mv me k fs r calls = (Throw x, r', calls') /\ exists done, done <> fs /\ (exists rest, fs = done ++ rest) /\ fst (then_chain k done r calls) = Ok r'
  | (UB, calls') => exists r', transform_chain mv me k fs r calls = (UB, r', calls')
  | (Terminate, calls') => exists r', transform_chain mv me k fs r calls = (Terminate, r', calls')
  | (Diverge, calls') => exists r', transform_chain mv me k fs r calls = (Diverge, r', calls')
  end.
Proof. exact @transform_thm. Qed.
Print Assumptions C139_transform.

Example C139_nonvacuous :
  let half := fun n : N => Ok (if N.even n then Val (n / 2) else @Err N bool true) in
  then_chain 0 [(half, false); (half, false); (half, false); (half, false)] (Val 20) [] = (Ok (Err true), [(0%nat, 20); (1%nat, 10); (2%nat, 5)]) /\
  transform_chain id id 0 [(half, false); (fun _ => Throw logic_error, false)] (Val 20) [] = (Throw logic_error, Val 10, [(0%nat, 20); (1%nat, 10)]) /\
  else_chain 0 [(fun e => Ok (@Err N bool (negb e)), false); (fun e => Ok (Val 7), false); (fun e => Ok (Val 8), false)] (Err true) []
    = (Ok (Val 7), [(0%nat, true); (1%nat, false)]).
Proof. repeat split. Qed.
