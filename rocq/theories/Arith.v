(** Arithmetic on dart::packet::number.  Model only.

    Doubles are computed by Coq.Floats.SpecFloat (Float.v); long double operands and
    wider intermediate results (FLT_EVAL_METHOD other than 0) are not modelled. *)

From Coq Require Import ZArith List Bool Floats.SpecFloat.
From Verif Require Import Base Dec Float Wire Ordered Buf HeapOps SpecArith Packet.
Import ListNotations.
Open Scope Z_scope.

(** The other operand: any integral type, float or double. *)
Inductive operand := OInt (z : Z) | OFloat (f : Z) | ODouble (d : Z).

(** The usual arithmetic conversions next to a double. *)
Definition int_bits (z : Z) : Z := bits_of_sf (sf_of_int z).
Definition as_double (t : operand) : Z :=
  match t with OInt z => int_bits z | OFloat f => widen f | ODouble d => d end.

Definition d_op (o : aop) (a b : Z) : Z :=
  let x := sf_of_bits a in let y := sf_of_bits b in
  bits_of_sf (match o with
              | Add => SFadd 53 1024 x y
              | Sub => SFsub 53 1024 x y
              | Mul => SFmul 53 1024 x y
              | Div => SFdiv 53 1024 x y
              end).

(** heap/primitive.tcc:53-62, buffer/primitive.tcc:23-32, packet/primitive.tcc:50-53
    (numeric).  basic_number::numeric (primitive.tcc:97-99) is noexcept: what is
    thrown here terminates. *)
Definition p_numeric (p : packet) : res Z :=
  match p_type p with
  | T_integer => v <- p_scalar T_integer p ;; match v with VInt z => Ok (int_bits z) | _ => Undef end
  | T_decimal => v <- p_scalar T_decimal p ;; match v with VDec d => Ok d | _ => Undef end
  | _ => Throw type_error
  end.

(** operators.tcc:70-98: number op T, and T op number (the operands change places). *)
Definition n_op (o : aop) (p : packet) (t : operand) : res Z :=
  x <- p_numeric p ;; Ok (d_op o x (as_double t)).
Definition t_op (o : aop) (t : operand) (p : packet) : res Z := n_op o p t.

(** primitive.tcc:30-84 (+=, -=, *=, /=, ++, --): the double is assigned to the packet,
    which goes through get_heap (packet/api.tcc:12-17) and replaces what the heap
    holds.  All of these are noexcept: what is thrown here terminates. *)
Definition n_update (o : aop) (p : packet) (t : operand) : res packet :=
  x <- n_op o p t ;; get_heap p (fun _ => Ok (PHeap (VDec x))).
Definition n_incr (p : packet) : res packet := n_update Add p (OInt 1).
Definition n_decr (p : packet) : res packet := n_update Sub p (OInt 1).

(** static_cast of a finite double to an integer: towards zero; undefined when the
    type cannot hold it. *)
Definition sf_trunc (x : spec_float) : option Z :=
  match x with
  | S754_zero _ => Some 0
  | S754_finite s m e => Some (cond_Zopp s (if 0 <=? e then Zpos m * 2 ^ e else Zpos m / 2 ^ (- e)))
  | _ => None
  end.
Definition d_to_int (i : ity) (d : Z) : res Z :=
  match sf_trunc (sf_of_bits d) with
  | Some z => if in_rangeb i z then Ok z else Undef
  | None => Undef
  end.

(** api.tcc:432-443 (number::operator T) for an integral T and for double. *)
Definition n_to_int (i : ity) (p : packet) : res Z :=
  match p_type p with
  | T_integer => v <- p_scalar T_integer p ;; match v with VInt z => Ok (conv i z) | _ => Undef end
  | _ => v <- p_scalar T_decimal p ;; match v with VDec d => d_to_int i d | _ => Undef end
  end.
Definition n_to_double (p : packet) : res Z :=
  match p_type p with
  | T_integer => v <- p_scalar T_integer p ;; match v with VInt z => Ok (int_bits z) | _ => Undef end
  | _ => v <- p_scalar T_decimal p ;; match v with VDec d => Ok d | _ => Undef end
  end.
