(** What spans of keys and values mean, without the model's loops. *)

From Coq Require Import ZArith List.
From Verif Require Import Base Keys Wire Spec Merge BufFacts Packet.
Import ListNotations.
Open Scope Z_scope.

(** The value an element of a span has: that of a mutable element, or the one a
    finalized element's bytes hold. *)
Definition worth (a : arg) (v : value) : Prop :=
  match a with
  | ArgHeap w => w = v
  | ArgBuf bs m e => represents bs m e v
  end.

(** A span as a list of pairs. *)
Fixpoint paired {A} (l : list (A * A)) : list A :=
  match l with [] => [] | (k, x) :: r => k :: x :: paired r end.
Definition spells (args : list (arg * arg)) (fs : list (str * value)) : Prop :=
  Forall2 (fun a kx => worth (fst a) (VStr (fst kx)) /\ worth (snd a) (snd kx)) args fs.

Definition short_keys (fs : list (str * value)) : Prop := Forall (fun kx => zlen (fst kx) <= 65535) fs.

(** [u] is [fb] with the pairs [fs] put in one after the other: the last value
    given for a key is the one it has. *)
Definition put_in_order (fb fs u : list (str * value)) : Prop :=
  forall k, lookup k u = match lookup k (rev fs) with Some x => Some x | None => lookup k fb end.

(** A key no object takes, and the exception a mutable object has for it. *)
Definition bad_key (v : value) (e : err) : Prop :=
  match v with
  | VStr s => 65535 < zlen s /\ e = invalid_argument
  | _ => e = type_error
  end.

(** What a packet shows. *)
Definition p_shows (p : packet) (v : value) : Prop :=
  match p with PHeap w => w = v | PBuf bs m e => represents bs m e v end.
