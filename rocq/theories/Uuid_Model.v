(** Model of wite/core/uuid.hpp and wite/core/uuid/uuid_functions.hpp.  Paths are
    relative to /repo.  A UUID is its 16 stored bytes.  Characters are unsigned
    code units ([N]); [cwidth] is the Char_T parameter. *)
From Verif Require Import Base Io_Model Hex_Model.
From Coq Require Import Ascii String List. Import ListNotations.
Open Scope N_scope. Open Scope list_scope.

(** ** Formats: uuid_functions.hpp:115-328.  The narrow and wide members of each
    format object hold the same characters, so one copy is kept.  An absent
    opening / closing character is Char_T{} = 0. *)
Record ufmt := UFmt {
  f_size : N; f_prefixed : bool; f_format : list N;
  f_open : N; f_close : N;
  f_delims : list (N * N)          (* required character, position *)
}.
(** wite/core/uuid/uuid_functions.hpp:230-312: the delimiters of a format. *)
Definition dash (positions : list N) : list (N * N) := map (fun p => (ch "-", p)) positions.

(** wite/core/uuid/uuid_functions.hpp:216-221 *)
Definition fmt_N := UFmt 32 false (codes "%08X%04X%04X%02X%02X%02X%02X%02X%02X%02X%02X") 0 0 [].
(** wite/core/uuid/uuid_functions.hpp:223-228 *)
Definition fmt_n := UFmt 32 false (codes "%08x%04x%04x%02x%02x%02x%02x%02x%02x%02x%02x") 0 0 [].
(** wite/core/uuid/uuid_functions.hpp:230-242 *)
Definition fmt_D := UFmt 36 false (codes "%08X-%04X-%04X-%02X%02X-%02X%02X%02X%02X%02X%02X")
  0 0 (dash [8; 13; 18; 23]).
(** wite/core/uuid/uuid_functions.hpp:244-256 *)
Definition fmt_d := UFmt 36 false (codes "%08x-%04x-%04x-%02x%02x-%02x%02x%02x%02x%02x%02x")
  0 0 (dash [8; 13; 18; 23]).
(** wite/core/uuid/uuid_functions.hpp:258-270 *)
Definition fmt_B := UFmt 38 false (codes "{%08X-%04X-%04X-%02X%02X-%02X%02X%02X%02X%02X%02X}")
  (ch "{") (ch "}") (dash [9; 14; 19; 24]).
(** wite/core/uuid/uuid_functions.hpp:272-284 *)
Definition fmt_b := UFmt 38 false (codes "{%08x-%04x-%04x-%02x%02x-%02x%02x%02x%02x%02x%02x}")
  (ch "{") (ch "}") (dash [9; 14; 19; 24]).
(** wite/core/uuid/uuid_functions.hpp:286-298 *)
Definition fmt_P := UFmt 38 false (codes "(%08X-%04X-%04X-%02X%02X-%02X%02X%02X%02X%02X%02X)")
  (ch "(") (ch ")") (dash [9; 14; 19; 24]).
(** wite/core/uuid/uuid_functions.hpp:300-312 *)
Definition fmt_p := UFmt 38 false (codes "(%08x-%04x-%04x-%02x%02x-%02x%02x%02x%02x%02x%02x)")
  (ch "(") (ch ")") (dash [9; 14; 19; 24]).
(** wite/core/uuid/uuid_functions.hpp:314-320 *)
Definition fmt_X := UFmt 68 true
  (codes "{0x%08X,0x%04X,0x%04X,{0x%02X,0x%02X,0x%02X,0x%02X,0x%02X,0x%02X,0x%02X,0x%02X}}") 0 0 [].
(** wite/core/uuid/uuid_functions.hpp:322-328 *)
Definition fmt_x := UFmt 68 true
  (codes "{0x%08x,0x%04x,0x%04x,{0x%02x,0x%02x,0x%02x,0x%02x,0x%02x,0x%02x,0x%02x,0x%02x}}")
  (ch "{") (ch "}") [].

(** ** Printing *)

(** Standard library. C library: lower / upper case digits, %0wx and %0wX conversions of an unsigned
    int, literal characters.  Any other directive is not used and is [UB] here. *)
Definition c_digit (upper : bool) (n : N) : N :=
  nth (N.to_nat n) (if upper then codes "0123456789ABCDEF" else codes "0123456789abcdef") 0.
(** Standard library: hexadecimal digits, no padding. *)
Fixpoint c_hex (upper : bool) (fuel : nat) (v : N) (acc : list N) : list N :=
  match fuel with
  | O => acc
  | S k => if v <? 16 then c_digit upper v :: acc
           else c_hex upper k (v / 16) (c_digit upper (v mod 16) :: acc)
  end.
(** Standard library: %0wx and %0wX. *)
Definition c_hex_padded (upper : bool) (width v : N) : list N :=
  let t := c_hex upper (S (N.size_nat v)) v [] in
  repeat (ch "0") (N.to_nat (width - lenN t)) ++ t.
(** Standard library: the format string. *)
Fixpoint c_format (f : list N) (args : list N) : outcome (list N) :=
  match f with
  | [] => Ok []
  | c :: r =>
      if c =? ch "%" then
        match r with
        | z :: w :: k :: r' =>
            if (z =? ch "0") && ((k =? ch "X") || (k =? ch "x")) then
              match args with
              | [] => UB
              | a :: args' => let! t := c_format r' args' in
                              Ok (c_hex_padded (k =? ch "X") (w - ch "0") a ++ t)
              end
            else UB
        | _ => UB
        end
      else let! t := c_format r args in Ok (c :: t)
  end.

(** Standard library. C library: storing characters at the start of the caller's memory [buf]. *)
Definition store_chars (buf s : list N) : outcome (list N) :=
  if lenN s <=? lenN buf then Ok (s ++ dropN (lenN s) buf) else UB.

(** snprintf / swprintf with claimed capacity [n] (uuid_functions.hpp:337-347).
    snprintf truncates to n-1 characters and a NUL; when the text does not fit,
    swprintf leaves the contents unspecified, which is [UB] here. *)
Definition c_snprintf (w : cwidth) (buf : list N) (n : N) (f args : list N) : list N * outcome unit :=
  match c_format f args with
  | Ok t =>
      if n =? 0 then (buf, Ok tt)
      else match w with
           | narrow => match store_chars buf (takeN (n - 1) t ++ [0]) with
                       | Ok buf' => (buf', Ok tt) | _ => (buf, UB) end
           | wide => if lenN t <? n
                     then match store_chars buf (t ++ [0]) with
                          | Ok buf' => (buf', Ok tt) | _ => (buf, UB) end
                     else (buf, UB)
           end
  | _ => (buf, UB)
  end.

(** Model only, no counterpart in the code. The value of an integer read from a buffer. *)
Definition value_N (v : value) : N := match v with VInt z => Z.to_N z | VPod _ => 0 end.

(** uuid_functions.hpp:351-383 (_to_c_str).  [buf] is the caller's memory, [max]
    the size the caller passes.  Returns the memory left behind. *)
Definition to_c_str_fmt (ev : env) (w : cwidth) (id : list byte) (f : ufmt) (buf : list N) (max : N)
  : list N * outcome bool :=
  if max <? sz_add (f_size f) 1 then (buf, Ok false)
  else
    match (let! (d1, p1) := unchecked_read ev (TEnc little 4 false) id 0 in
           let! (d2, p2) := unchecked_read ev (TEnc little 2 false) id p1 in
           let! (d3, p3) := unchecked_read ev (TEnc little 2 false) id p2 in
           let! d4 := load id 8 8 in
           Ok (value_N d1 :: value_N d2 :: value_N d3 :: map Byte.to_N d4)) with
    | Ok args =>
        match c_snprintf w buf max (f_format f) args with
        | (buf', Ok _) => (buf', Ok true)
        | (buf', _) => (buf', UB)
        end
    | _ => (buf, UB)
    end.

(** The format letter, as in the switches of uuid_functions.hpp:398-424 and 435-462. *)
Definition print_format (letter : N) : option ufmt :=
  if letter =? ch "D" then Some fmt_D
  else if letter =? ch "N" then Some fmt_N
  else if letter =? ch "B" then Some fmt_B
  else if letter =? ch "P" then Some fmt_P
  else if letter =? ch "X" then Some fmt_X
  else if letter =? ch "d" then Some fmt_d
  else if letter =? ch "n" then Some fmt_n
  else if letter =? ch "b" then Some fmt_b
  else if letter =? ch "p" then Some fmt_p
  else if letter =? ch "x" then Some fmt_x
  else None.

(** uuid_functions.hpp:435-463 (to_c_str), uuid.hpp:90-95 (into_c_str). *)
Definition to_c_str (ev : env) (w : cwidth) (id : list byte) (buf : list N) (max : N) (letter : N)
  : list N * outcome bool :=
  match print_format letter with
  | Some f => to_c_str_fmt ev w id f buf max
  | None => (buf, Ok false)
  end.

(** Standard library. A C string: the characters before the first NUL; without one, reading runs off
    the end of the memory. *)
Fixpoint c_str (mem : list N) : outcome (list N) :=
  match mem with
  | [] => UB
  | c :: r => if c =? 0 then Ok [] else let! t := c_str r in Ok (c :: t)
  end.

(** uuid_functions.hpp:387-393 (_to_string with a format object): a zeroed buffer
    of 1 + X.size characters; the bool is ignored. *)
Definition to_string_fmt (ev : env) (w : cwidth) (id : list byte) (f : ufmt) : outcome (list N) :=
  match to_c_str_fmt ev w id f (repeat 0 (N.to_nat (1 + f_size fmt_X))) (1 + f_size fmt_X) with
  | (buf, Ok _) => c_str buf
  | (_, _) => UB
  end.

(** uuid_functions.hpp:398-427 (_to_string), 466-477 (to_string, to_wstring),
    uuid.hpp:96-97 (str, wstr). *)
Definition to_string (ev : env) (w : cwidth) (id : list byte) (letter : N) : outcome (list N) :=
  match print_format letter with
  | Some f => to_string_fmt ev w id f
  | None => Throw invalid_argument
  end.

(** ** Parsing *)

(** std::isxdigit in the C locale, applied to the character as an unsigned value:
    defined only for values of unsigned char and EOF (a wide 0xFFFFFFFF converts to -1). *)
Definition c_isxdigit (w : cwidth) (c : N) : outcome bool :=
  if (c <? 256) || (match w with narrow => false | wide => c =? 0xFFFFFFFF end)
  then Ok (existsb (N.eqb c) (codes "0123456789ABCDEFabcdef")) else UB.

(** uuid_functions.hpp:43-58 (remove_0x_prefixes_and_nonhex_chars).  [out] is the
    digit array; writing outside it, or reading the character after the last one,
    is undefined. *)
Fixpoint remove_0x (w : cwidth) (s : list N) (p0 p1 : N) (out : list N) (write_pos : N) : outcome (list N) :=
  match s with
  | [] => Ok out
  | c :: r =>
      let! hit := (if c =? p0 then match r with [] => UB | d :: _ => Ok (d =? p1) end else Ok false) in
      if hit then match r with [] => UB | _ :: r' => remove_0x w r' p0 p1 out write_pos end
      else
        let! x := c_isxdigit w c in
        if negb x then remove_0x w r p0 p1 out write_pos
        else let! out' := put out write_pos c in remove_0x w r p0 p1 out' (write_pos + 1)
  end.

(** std::ranges::copy_if with the isxdigit predicate (uuid_functions.hpp:73-76). *)
Fixpoint copy_hex (w : cwidth) (s : list N) (out : list N) (write_pos : N) : outcome (list N) :=
  match s with
  | [] => Ok out
  | c :: r =>
      let! x := c_isxdigit w c in
      if x then let! out' := put out write_pos c in copy_hex w r out' (write_pos + 1)
      else copy_hex w r out write_pos
  end.

(** uuid_functions.hpp:60-77 (strip_non_hex_characters) *)
Definition strip_non_hex (w : cwidth) (s : list N) (prefixed : bool) (out : list N) : outcome (list N) :=
  if prefixed then remove_0x w s (ch "0") (ch "x") out 0 else copy_hex w s out 0.

(** uuid_functions.hpp:79-84 (format_as_uuid_data) *)
Definition format_as_uuid_data (a : list byte) : list byte :=
  rev (takeN 4 a) ++ rev (takeN 2 (dropN 4 a)) ++ rev (takeN 2 (dropN 6 a)) ++ dropN 8 a.

(** uuid_functions.hpp:149-165 (is_opening, is_closing) *)
Definition is_opening (f : ufmt) (c : N) : bool := (f_open f =? 0) || (f_open f =? c).
(** wite/core/uuid/uuid_functions.hpp:158-165. *)
Definition is_closing (f : ufmt) (c : N) : bool := (f_close f =? 0) || (f_close f =? c).

(** std::ranges::any_of over the delimiters (uuid_functions.hpp:194-197) *)
Fixpoint any_bad_delimiter (s : list N) (ds : list (N * N)) : outcome bool :=
  match ds with
  | [] => Ok false
  | (v, p) :: r => let! c := deref s p in if negb (v =? c) then Ok true else any_bad_delimiter s r
  end.

(** uuid_functions.hpp:184-204 (is_a_valid_uuid_string) *)
Definition is_a_valid_uuid_string (f : ufmt) (s : list N) : outcome bool :=
  if negb (lenN s =? f_size f) then Ok false
  else
    let! front := deref s 0 in
    let! back := deref s (lenN s - 1) in
    if negb (is_opening f front) || negb (is_closing f back) then Ok false
    else let! bad := any_bad_delimiter s (f_delims f) in Ok (negb bad).

(** The distance from the start of the array to just after its last non-NUL
    character (uuid.hpp:143-145, 198-200). *)
Fixpoint used_length (a : list N) : N :=
  match a with
  | [] => 0
  | c :: r => let n := used_length r in if (n =? 0) && (c =? 0) then 0 else n + 1
  end.

(** uuid_functions.hpp:481-489 (unsafe_basic_uuid_from_string): s.data() is passed
    where a string_view is expected, so the length is found with strlen, which goes
    on past the array into [after], the memory behind it.  The language gives no
    meaning to that read: [after] = [] is the standard's view, a longer list is
    what some compiled program might find there. *)
Definition unsafe_uuid_from_digits (w : cwidth) (after : list N) (arr : list N) : outcome (list byte) :=
  let! view := c_str (arr ++ after) in
  let! a := unsafe_unhexlify w 16 view in
  Ok (format_as_uuid_data a).

(** uuid.hpp:134-150 (_init_from_wrapped_fmt_string) *)
Definition uuid_from_fmt (w : cwidth) (after : list N) (s : list N) (f : ufmt) : outcome (list byte) :=
  let! valid := is_a_valid_uuid_string f s in
  if negb valid then Throw invalid_argument
  else
    let! digits := strip_non_hex w s (f_prefixed f) (repeat 0 32) in
    if negb (used_length digits =? 32) then Throw invalid_argument
    else unsafe_uuid_from_digits w after digits.

(** The switches of uuid.hpp:103-131 and 217-239: both letter cases use the
    upper-case format object. *)
Definition parse_format (letter : N) : option ufmt :=
  if (letter =? ch "N") || (letter =? ch "n") then Some fmt_N
  else if (letter =? ch "D") || (letter =? ch "d") then Some fmt_D
  else if (letter =? ch "B") || (letter =? ch "b") then Some fmt_B
  else if (letter =? ch "P") || (letter =? ch "p") then Some fmt_P
  else if (letter =? ch "X") || (letter =? ch "x") then Some fmt_X
  else None.

(** uuid.hpp:79-85, 101-132 (constructors from text) *)
Definition uuid_from_string (w : cwidth) (after : list N) (s : list N) (letter : N) : outcome (list byte) :=
  match parse_format letter with
  | Some f => uuid_from_fmt w after s f
  | None => Throw invalid_argument
  end.

(** wite/core/uuid.hpp:167-170 make_uuid_error. *)
Inductive make_uuid_error := invalid_uuid_format | invalid_uuid_format_type.

(** uuid.hpp:186-208 (try_make_uuid with a format object, noexcept) *)
Definition try_make_uuid_fmt (w : cwidth) (after : list N) (s : list N) (f : ufmt)
  : outcome (result (list byte) make_uuid_error) :=
  let! valid := is_a_valid_uuid_string f s in
  if negb valid then Ok (RErr invalid_uuid_format)
  else
    let! digits := strip_non_hex w s (f_prefixed f) (repeat 0 32) in
    if negb (used_length digits =? 32) then Ok (RErr invalid_uuid_format)
    else let! u := unsafe_uuid_from_digits w after digits in Ok (RVal u).

(** uuid.hpp:211-250 (try_make_uuid with a letter, noexcept) *)
Definition try_make_uuid (w : cwidth) (after : list N) (s : list N) (letter : N)
  : outcome (result (list byte) make_uuid_error) :=
  match parse_format letter with
  | Some f => noexcept (try_make_uuid_fmt w after s f)
  | None => Ok (RErr invalid_uuid_format_type)
  end.

(** ** Construction *)

(** uuid.hpp:56-58: uuid(d1, d2, d3, d4) *)
Definition uuid_from_fields (ev : env) (d1 d2 d3 : Z) (d4 : list byte) : outcome (list byte) :=
  match write ev [AVal (TEnc little 4 false) (VInt d1); AVal (TEnc little 2 false) (VInt d2);
                  AVal (TEnc little 2 false) (VInt d3);
                  ARange (SInt 1 false) (map (fun b => VInt (Z.of_N (Byte.to_N b))) d4)] (repeat x00 16) with
  | (data, Ok _) => Ok data
  | (_, Throw e) => Throw e
  | (_, _) => UB
  end.

(** C++ language (Standard): assignment to an element of an array. *)
Definition set_byte (a : list byte) (i : nat) (b : byte) : list byte := firstn i a ++ b :: skipn (S i) a.

(** uuid.hpp:62-76: uuid(engine).  [w1], [w2] are the two 64-bit words the
    distribution returns; each is stored in the machine's byte order.
    Simplification: the stores through a uint64_t pointer are taken to write the
    bytes of the array (the language leaves this undefined: aliasing, and alignment,
    for which see UuidPlace_Model.v). *)
Definition uuid_random (m : endian) (w1 w2 : N) : list byte :=
  let data := int_to_mem m 8 (Z.of_N w1) ++ repeat x00 8 in
  let data := set_byte data 6 (byte_of_N (N.lor (N.land (Byte.to_N (nth 6 data x00)) 15) 64)) in
  let data := firstn 8 data ++ int_to_mem m 8 (Z.of_N w2) in
  set_byte data 8 (byte_of_N (N.lor (N.land (Byte.to_N (nth 8 data x00)) 63) 128)).

(** ** Comparison and hash *)

(** uuid.hpp:88, basic_uuid.hpp:60 (defaulted operator<=>): lexicographic on the bytes. *)
Fixpoint uuid_compare (a b : list byte) : comparison :=
  match a, b with
  | [], [] => Eq
  | [], _ :: _ => Lt
  | _ :: _, [] => Gt
  | x :: a', y :: b' => match Byte.to_N x ?= Byte.to_N y with Eq => uuid_compare a' b' | c => c end
  end.

(** wite/core/uuid.hpp:88, wite/core/uuid/basic_uuid.hpp:60. The implicitly defaulted operator==: element by element. *)
Fixpoint uuid_equal (a b : list byte) : bool :=
  match a, b with
  | [], [] => true
  | x :: a', y :: b' => (Byte.to_N x =? Byte.to_N y) && uuid_equal a' b'
  | _, _ => false
  end.

(** uuid.hpp:258-264 (std::hash<uuid>); [h] is std::hash<uint64_t>.
    Simplification: as for the random constructor, the loads through uint64_t
    pointers read the bytes of the array. *)
Definition uuid_hash (m : endian) (h : Z -> N) (id : list byte) : N :=
  N.lxor (h (int_of_mem m 8 false (firstn 8 id))) (h (int_of_mem m 8 false (skipn 8 id))).
