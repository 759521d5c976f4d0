(** The format strings of the variadic initializers (abi.h:545-604): which calls
    they allow and the document such a call describes.  Specification only. *)

From Coq Require Import ZArith String Ascii List Bool.
From Verif Require Import Base Keys Wire Spec SpecJson.
Import Init.Byte.
Import ListNotations.
Open Scope string_scope. Open Scope list_scope. Open Scope Z_scope.

(** An argument as the caller passed it; a pointer with the bytes that can be read
    from there; size_t is unsigned long. *)
Inductive carg :=
| G_ptr (m : str)
| G_int (z : Z) | G_uint (z : Z)
| G_long (z : Z) | G_ulong (z : Z)
| G_llong (z : Z) | G_ullong (z : Z)
| G_double (d : Z).
Definition arg_ok (g : carg) : Prop :=
  match g with
  | G_ptr m => zlen m < 2 ^ 63
  | G_int z => - 2 ^ 31 <= z < 2 ^ 31
  | G_uint z => 0 <= z < 2 ^ 32
  | G_long z | G_llong z => - 2 ^ 63 <= z < 2 ^ 63
  | G_ulong z | G_ullong z => 0 <= z < 2 ^ 64
  | G_double d => 0 <= d < 2 ^ 64
  end.

(** What may be read as what: the type itself, or the other signedness if the value
    has both (C11 7.16.1.1). *)
Inductive given_int : carg -> Z -> Prop :=
| gi_int z : given_int (G_int z) z
| gi_uint z : z < 2 ^ 31 -> given_int (G_uint z) z.
Inductive given_uint : carg -> Z -> Prop :=
| gu_uint z : given_uint (G_uint z) z
| gu_int z : 0 <= z -> given_uint (G_int z) z.
Inductive given_llong : carg -> Z -> Prop :=
| gl_llong z : given_llong (G_llong z) z
| gl_ullong z : z < 2 ^ 63 -> given_llong (G_ullong z) z.
Inductive given_ullong : carg -> Z -> Prop :=
| gul_ullong z : given_ullong (G_ullong z) z
| gul_llong z : 0 <= z -> given_ullong (G_llong z) z.
Inductive given_size : carg -> Z -> Prop :=
| gs_ulong z : given_size (G_ulong z) z
| gs_long z : 0 <= z -> given_size (G_long z) z.
(** A string that ends at its first zero. *)
Definition text (m s : str) : Prop := exists r, m = s ++ x00 :: r /\ ~ In x00 s.

Inductive val_fmt : str -> list carg -> jdoc -> Prop :=
| f_str m s : text m s -> val_fmt (lit "s") [G_ptr m] (JStr s)
| f_sized s r g : given_size g (zlen s) -> val_fmt (lit "S") [G_ptr (s ++ r); g] (JStr s)
| f_int g z : given_int g z -> val_fmt (lit "i") [g] (JInt z)
| f_uint g z : given_uint g z -> val_fmt (lit "ui") [g] (JInt z)
| f_long g z : given_llong g z -> val_fmt (lit "l") [g] (JInt z)
| f_ulong g z : given_ullong g z -> 0 <= z < 2 ^ 63 -> val_fmt (lit "ul") [g] (JInt z)
| f_ulong_big g z : given_ullong g z -> 2 ^ 63 <= z < 2 ^ 64 -> val_fmt (lit "ul") [g] (JInt (z - 2 ^ 64))
| f_dec d : val_fmt (lit "d") [G_double d] (JDec d)
| f_bool g z : given_int g z -> val_fmt (lit "b") [g] (JBool (negb (z =? 0)))
| f_null : val_fmt (lit "n") [] JNull
| f_space : val_fmt (lit " ") [] JNull
| f_obj f a ms : pairs_fmt f a ms -> val_fmt (lit "o" ++ f ++ lit ",") a (JObj ms)
| f_arr f a ds : vals_fmt f a ds -> val_fmt (lit "a" ++ f ++ lit ",") a (JArr ds)
with pairs_fmt : str -> list carg -> list (str * jdoc) -> Prop :=
| fp_nil : pairs_fmt [] [] []
| fp_cons m k f a d f' a' ms : text m k -> val_fmt f a d -> pairs_fmt f' a' ms ->
    pairs_fmt (f ++ f') (G_ptr m :: a ++ a') ((k, d) :: ms)
with vals_fmt : str -> list carg -> list jdoc -> Prop :=
| fv_nil : vals_fmt [] [] []
| fv_cons f a d f' a' ds : val_fmt f a d -> vals_fmt f' a' ds ->
    vals_fmt (f ++ f') (a ++ a') (d :: ds).

(** Aggregates still open at the end of the string are closed there. *)
Inductive open_fmt : str -> list carg -> jdoc -> Prop :=
| o_obj f a ms : pairs_open f a ms -> open_fmt (lit "o" ++ f) a (JObj ms)
| o_arr f a ds : vals_open f a ds -> open_fmt (lit "a" ++ f) a (JArr ds)
with pairs_open : str -> list carg -> list (str * jdoc) -> Prop :=
| op_nil : pairs_open [] [] []
| op_cons m k f a d f' a' ms : text m k -> val_fmt f a d -> pairs_open f' a' ms ->
    pairs_open (f ++ f') (G_ptr m :: a ++ a') ((k, d) :: ms)
| op_last m k f a d : text m k -> open_fmt f a d -> pairs_open f (G_ptr m :: a) [(k, d)]
with vals_open : str -> list carg -> list jdoc -> Prop :=
| ov_nil : vals_open [] [] []
| ov_cons f a d f' a' ds : val_fmt f a d -> vals_open f' a' ds ->
    vals_open (f ++ f') (a ++ a') (d :: ds)
| ov_last f a d : open_fmt f a d -> vals_open f a [d].

(** Which initializer, and the document a call of it describes.  What follows a comma
    that closes the outermost aggregate says nothing. *)
Inductive whole := As_object | As_array.
Inductive describes : whole -> str -> list carg -> jdoc -> Prop :=
| d_obj f a ms : pairs_open f a ms -> describes As_object f a (JObj ms)
| d_obj_closed f a ms rest : pairs_fmt f a ms -> describes As_object (f ++ lit "," ++ rest) a (JObj ms)
| d_arr f a ds : vals_open f a ds -> describes As_array f a (JArr ds)
| d_arr_closed f a ds rest : vals_fmt f a ds -> describes As_array (f ++ lit "," ++ rest) a (JArr ds).

(** A character with no meaning where it stands. *)
Definition letters : str := lit "oasSuildbn ,".
Definition unknown_at (c : byte) (r : str) : Prop :=
  ~ In c letters \/ c = x75 /\ forall t, r <> x69 :: t /\ r <> x6c :: t.
Definition unknown_in (f : str) : Prop := exists h c r, f = h ++ c :: r /\ unknown_at c r.
Definition long_key (args : list carg) : Prop := exists m k, In (G_ptr m) args /\ text m k /\ 65535 < zlen k.
