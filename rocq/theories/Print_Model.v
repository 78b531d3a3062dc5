(** Model of wite/geometry/io.hpp, wite/maths/io.hpp and wite/core/io.hpp.  Characters are
    codes; the wide and narrow versions write the same characters. *)
From Verif Require Import Base Io_Model Hex_Model Uuid_Model Range_Model Point_Model.
From Coq Require Import Ascii String List. Import ListNotations.
Open Scope N_scope. Open Scope list_scope.

(** Standard library, std::basic_ostream. An output stream: the field width and fill character, and what has been written.
    Simplified: no write fails, and padding goes before the text (the default adjustment). *)
Record ostream := OS { os_width : N; os_fill : N; os_out : list N }.

(** One formatted insertion of a text ([std::operator<<]): padded to the width, which is reset. *)
Definition put (os : ostream) (t : list N) : ostream :=
  OS 0 (os_fill os) (os_out os ++ repeat (os_fill os) (N.to_nat (os_width os - lenN t)) ++ t).

Section Elements.
Context {V : Type}.
(** What [os << v] writes for an element, apart from padding (the standard library's
    conversion under the stream's flags, precision and locale). *)
Variable show : V -> list N.

(** geometry/io.hpp:18-20: the loop from index [i], [n] elements left *)
Fixpoint put_rest (os : ostream) (p : point V) (i n : nat) : outcome ostream :=
  match n with
  | O => Ok os
  | S n' => let os := put os (codes ", ") in
            let! v := pt_get p i in
            put_rest (put os (show v)) p (i + 1) n'
  end.
(** geometry/io.hpp:14-25 and 27-38 os << point.  The index is an unsigned int: with 2^32
    or more dimensions it never reaches the end. *)
Definition put_point (os : ostream) (p : point V) : outcome ostream :=
  let os := put os (codes "[ ") in
  let! v := pt_get p 0 in
  let os := put os (show v) in
  if lenN p <? 2 ^ 32 then
    let! os := put_rest os p 1 (pt_dimensions p - 1) in
    Ok (put os (codes " ]"))
  else Diverge.

(** maths/io.hpp:14-32 and 34-51 os << value_range *)
Definition put_range (lk hk : boundary) (os : ostream) (r : vrange V) : ostream :=
  let os := put os (match lk with closed => codes "[ " | opened => codes "( " end) in
  let os := put (put (put os (show (vmin r))) (codes ", ")) (show (vmax r)) in
  put os (match hk with closed => codes " ]" | opened => codes " )" end).
End Elements.

(** core/io.hpp:44-48 os << id: inserts the value of the id; [put_value]: its operator<< *)
Definition put_id {V} (put_value : ostream -> V -> outcome ostream) (os : ostream) (id : V) : outcome ostream := put_value os id.

(** std::operator<<(os, size_t) without flags: decimal.  [fuel] bounds the digits. *)
Fixpoint decimal_digits (fuel : nat) (n : N) (acc : list N) : list N :=
  match fuel with
  | O => acc
  | S f => let acc := (ch "0" + n mod 10) :: acc in
           if n / 10 =? 0 then acc else decimal_digits f (n / 10) acc
  end.
(** Standard library, std::operator<<(os, size_t). *)
Definition decimal (n : N) : list N := decimal_digits (S (N.to_nat (N.size n))) n [].

(** std::operator<<(os, long long) without flags *)
Definition decimal_z (z : Z) : list N :=
  if (z <? 0)%Z then ch "-" :: decimal (Z.to_N (- z)) else decimal (Z.to_N z).

(** core/io.hpp:36-40 os << index *)
Definition put_index (os : ostream) (i : N) : ostream := put os (decimal i).
(** core/io.hpp:20-24 and 28-32 os << uuid: to_string with the default format [letter]
    (WITE_DEFAULT_UUID_FMT, basic_uuid.hpp:27) *)
Definition put_uuid (ev : env) (w : cwidth) (letter : N) (os : ostream) (id : list byte) : outcome ostream :=
  let! t := to_string ev w id letter in Ok (put os t).
