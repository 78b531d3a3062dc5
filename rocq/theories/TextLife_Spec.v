(** What fragment strings, token views and copies show of texts that change and die: said with positions and characters,
    without the functions of the model (only its types of operations, observations and values). *)
From Coq Require Import List. Import ListNotations.
From Verif Require Import Base String_Model TextLife_Model.
Local Open Scope N_scope.

(** The texts by number, while they live; how many there have been; and what the variables hold. *)
Record world := World { text_of : N -> option (list N); born : N; holds : N -> option tvar }.
Definition nothing_yet : world := World (fun _ => None) 0 (fun _ => None).

Definition upd {A} (f : N -> A) (n : N) (x : A) : N -> A := fun m => if m =? n then x else f m.

(** The characters before the first NUL; [None] if there is none. *)
Fixpoint before_nul (cs : list N) : option (list N) :=
  match cs with
  | [] => None
  | c :: r => if c =? 0 then Some [] else option_map (cons c) (before_nul r)
  end.
(** The C string that starts at character [k] of text [n]. *)
Definition c_string (w : world) (n k : N) : option (list N) :=
  match text_of w n with
  | Some cs => if k <=? lenN cs then before_nul (dropN k cs) else None
  | None => None
  end.

(** Where the pieces of a text between the separators [d] are: start and length.  [start] is where the current piece
    starts and [len] how long it already is. *)
Fixpoint pieces (d start len : N) (cs : list N) : list (N * N) :=
  match cs with
  | [] => [(start, len)]
  | c :: r => if c =? d then (start, len) :: pieces d (start + len + 1) 0 r else pieces d start (len + 1) r
  end.
Definition wanted (b : split_behaviour) (p : N * N) : bool :=
  match b with keep_empty => true | drop_empty => 0 <? snd p end.
Definition places (d : N) (b : split_behaviour) (cs : list N) : list (N * N) := filter (wanted b) (pieces d 0 0 cs).

(** The characters that a view shows now. *)
Definition shown (w : world) (v : sview) : option (list N) :=
  match v with
  | Null => Some []
  | Sv n from len =>
      if len =? 0 then Some []
      else match text_of w n with
           | Some cs => if from + len <=? lenN cs then Some (takeN len (dropN from cs)) else None
           | None => None
           end
  end.
(** The C string that starts where the view starts. *)
Definition c_shown (w : world) (v : sview) : option (list N) :=
  match v with Null => None | Sv n from _ => c_string w n from end.
Definition len_of (v : sview) : N := match v with Null => 0 | Sv _ _ len => len end.
(** All of them, one after the other. *)
Fixpoint all_of (f : sview -> option (list N)) (vs : list sview) : option (list N) :=
  match vs with
  | [] => Some []
  | v :: r => match f v, all_of f r with Some t, Some u => Some (t ++ u) | _, _ => None end
  end.

Definition hold (w : world) (v : N) (x : tvar) : world := World (text_of w) (born w) (upd (holds w) v (Some x)).

(** One operation; [None] is undefined behaviour. *)
Definition effect (w : world) (o : top) : option (tobs * world) :=
  match o with
  | TNew cs => Some (TNothing, World (upd (text_of w) (born w) (Some cs)) (born w + 1) (holds w))
  | TPoke n k c =>
      match text_of w n with
      | Some cs => if k <? lenN cs
                   then Some (TNothing, World (upd (text_of w) n (Some (takeN k cs ++ [c] ++ dropN (k + 1) cs))) (born w) (holds w))
                   else None
      | None => None
      end
  | TEnd n =>
      match text_of w n with
      | Some _ => Some (TNothing, World (upd (text_of w) n None) (born w) (holds w))
      | None => None
      end
  | TMake v n k =>
      match c_string w n k with
      | Some t => Some (TNothing, hold w v (TFrag [Sv n k (lenN t)]))
      | None => None
      end
  | TDefault v j => Some (TNothing, hold w v (TFrag (repeat Null j)))
  | TPlus v a b =>
      match holds w a, holds w b with
      | Some (TFrag x), Some (TFrag y) => Some (TNothing, hold w v (TFrag (x ++ y)))
      | _, _ => None
      end
  | TSplitViews v n k d b =>
      match c_string w n k with
      | Some t => Some (TNothing, hold w v (TViews (map (fun p => Sv n (k + fst p) (snd p)) (places d b t))))
      | None => None
      end
  | TSplitStrings v n k d b =>
      match c_string w n k with
      | Some t => Some (TNothing, hold w v (TStrings (map (fun p => takeN (snd p) (dropN (fst p) t)) (places d b t))))
      | None => None
      end
  | TSave v a =>
      match holds w a with
      | Some (TFrag vs) =>
          match all_of (c_shown w) vs with Some t => Some (TNothing, hold w v (TStrings [t])) | None => None end
      | _ => None
      end
  | TLength v =>
      match holds w v with
      | Some (TFrag vs) => Some (TNum (fold_right (fun x n => len_of x + n) 0 vs), w)
      | _ => None
      end
  | TPrint v =>
      match holds w v with
      | Some (TFrag vs) => match all_of (shown w) vs with Some t => Some (TText t, w) | None => None end
      | _ => None
      end
  | TToStr v =>
      match holds w v with
      | Some (TFrag vs) => match all_of (c_shown w) vs with Some t => Some (TText t, w) | None => None end
      | _ => None
      end
  | TItem v i =>
      match holds w v with
      | Some (TViews vs) =>
          match nth_error vs (N.to_nat i) with
          | Some x => match shown w x with Some t => Some (TText t, w) | None => None end
          | None => None
          end
      | Some (TStrings ss) => match nth_error ss (N.to_nat i) with Some t => Some (TText t, w) | None => None end
      | _ => None
      end
  end.
Fixpoint effects (w : world) (p : list top) : option (list tobs * world) :=
  match p with
  | [] => Some ([], w)
  | o :: q => match effect w o with
              | Some (x, w1) => match effects w1 q with Some (xs, w2) => Some (x :: xs, w2) | None => None end
              | None => None
              end
  end.

(** The operation gives variable [v] another value. *)
Definition assigns (v : N) (o : top) : Prop :=
  match o with
  | TMake u _ _ | TDefault u _ | TPlus u _ _ | TSplitViews u _ _ _ _ | TSplitStrings u _ _ _ _ | TSave u _ => u = v
  | _ => False
  end.
(** The operation ends the life of a text. *)
Definition ends_a_text (o : top) : Prop := match o with TEnd _ => True | _ => False end.
(** The operation changes the characters of a text. *)
Definition changes_text (o : top) : Prop := match o with TPoke _ _ _ => True | _ => False end.
(** A change of a character that neither puts a NUL into a text nor takes one away, in the state before it. *)
Definition keeps_nuls (s : tstate) (o : top) : Prop :=
  match o with
  | TPoke n k c => c <> 0 /\ forall cs, nth_error (t_mem s) (N.to_nat n) = Some (Some cs) -> nth_error cs (N.to_nat k) <> Some 0
  | _ => True
  end.
Fixpoint all_keep_nuls (s : tstate) (p : list top) : Prop :=
  match p with
  | [] => True
  | o :: q => keeps_nuls s o /\ forall x s1, tstep s o = Ok (x, s1) -> all_keep_nuls s1 q
  end.

(** Text [n] lives. *)
Definition lives (s : tstate) (n : N) : Prop := exists cs, nth_error (t_mem s) (N.to_nat n) = Some (Some cs).
(** Every text that the view shows characters of lives. *)
Definition text_lives (s : tstate) (v : sview) : Prop :=
  match v with Sv n _ len => 0 < len -> lives s n | Null => True end.
