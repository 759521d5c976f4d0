(** What the C++ standard asks of string views ([string.view.ops],
    [string.view.find]), stated over lists of bytes. *)

From Coq Require Import ZArith List.
From Verif Require Import Base.
Import ListNotations.
Open Scope Z_scope.

(** [t] appears in [s] at position [i]. *)
Definition occurs (t s : list byte) (i : Z) : Prop :=
  exists pre post, s = pre ++ t ++ post /\ zlen pre = i.

(** The character at position [i] of [s] is, or is not, among those of [t]. *)
Definition member_at (t s : list byte) (i : Z) : Prop :=
  exists pre c post, s = pre ++ c :: post /\ zlen pre = i /\ In c t.
Definition stranger_at (t s : list byte) (i : Z) : Prop :=
  exists pre c post, s = pre ++ c :: post /\ zlen pre = i /\ ~ In c t.

(** [r] is the first position from [lo] on (the last one up to [hi]) with property
    [P], or [no] if there is none. *)
Definition first_from (P : Z -> Prop) (lo no r : Z) : Prop :=
  (lo <= r /\ P r /\ forall j, lo <= j < r -> ~ P j) \/ (r = no /\ forall j, lo <= j -> ~ P j).
Definition last_upto (P : Z -> Prop) (hi no r : Z) : Prop :=
  (r <= hi /\ P r /\ forall j, r < j <= hi -> ~ P j) \/ (r = no /\ forall j, j <= hi -> ~ P j).
