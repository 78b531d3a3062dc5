(** Model of core/index.hpp: a size_t with checked arithmetic, and of core/id.hpp. *)
From Verif Require Import Base.

Section Index.
Variable b : build.

(** std::numeric_limits<size_t>::max() *)
Definition idx_max : N := size_mod - 1.
(** C++ language (Standard). A ptrdiff_t converted to size_t *)
Definition to_size (z : Z) : N := Z.to_N (z mod Z.of_N size_mod)%Z.
(** C++ language (Standard). -offset for a ptrdiff_t: undefined for the most negative value *)
Definition neg_ptrdiff (z : Z) : outcome Z := if (z =? - 2 ^ 63)%Z then UB else Ok (- z)%Z.
(** wite/env/configuration.hpp: whether assertions are on. *)
Definition is_debug : bool := match b with Release => false | _ => true end.

(** index.hpp:40-44 ++i: the index afterwards *)
Definition ix_inc (i : N) : outcome N :=
  let! _ := dassert b (i <? idx_max) in Ok (sz_add i 1).
(** wite/core/index.hpp:46-51 i++: the returned index and the index afterwards *)
Definition ix_post_inc (i : N) : outcome (N * N) :=
  let! _ := dassert b (i <? idx_max) in Ok (i, sz_add i 1).
(** wite/core/index.hpp:53-57 --i *)
Definition ix_dec (i : N) : outcome N :=
  let! _ := dassert b (0 <? i) in Ok (sz_sub i 1).
(** wite/core/index.hpp:59-64 i-- *)
Definition ix_post_dec (i : N) : outcome (N * N) :=
  let! _ := dassert b (0 <? i) in Ok (i, sz_sub i 1).
(** wite/core/index.hpp:66-76 i += offset *)
Definition ix_add_assign (i : N) (off : Z) : outcome N :=
  let! _ := (if is_debug then
               if (0 <? off)%Z then dassert b (i <=? sz_sub idx_max (to_size off))
               else let! m := neg_ptrdiff off in dassert b (to_size m <=? i)
             else Ok tt) in
  Ok (sz_add i (to_size off)).
(** wite/core/index.hpp:78-88 i -= offset *)
Definition ix_sub_assign (i : N) (off : Z) : outcome N :=
  let! _ := (if is_debug then
               if (0 <? off)%Z then dassert b (to_size off <=? i)
               else let! m := neg_ptrdiff off in dassert b (i <=? sz_sub idx_max (to_size m))
             else Ok tt) in
  Ok (sz_sub i (to_size off)).
(** wite/core/index.hpp:90-94 i + offset *)
Definition ix_add (i : N) (off : Z) : outcome N := ix_add_assign i off.
(** wite/core/index.hpp:96-100 i - offset *)
Definition ix_sub (i : N) (off : Z) : outcome N := ix_sub_assign i off.
End Index.
