(** C51: what validating a buffer and searching an object cost. *)

From Coq Require Import ZArith List Bool Lia String.
From Coq Require Import ZifyBool ZifyNat.
From Verif Require Import Base BaseFacts Keys Dec Wire Read Buf HeapOps Enc EncSize Spec ReadFacts BufFacts Canon Demo ValidFacts ValidEnc
  SpecCost Cost CostFacts Bomb PropsWire PropsValid.
Import ListNotations.
Open Scope string_scope.
Open Scope list_scope.
Open Scope Z_scope.

(** ** Counting changes nothing *)
Theorem c51_same bs m b :
  (is_valid bs m = Ok b <-> exists c, valid_cost true bs m = Ok (b, c)) /\
  (validate bs m = Ok tt <-> exists b c, valid_cost false bs m = Ok (b, c)).
Proof.
  unfold is_valid, validate, valid_cost. rewrite <- !cost_erase. split.
  - destruct (cost_buffer _ true bs m R_object 0 (zlen m)) as [[x c]| | | |]; cbn [erase bind]; split; intros H; try discriminate;
      try (destruct H as (? & H); discriminate).
    + injection H as ->. now exists c.
    + destruct H as (? & H). injection H as -> ->. reflexivity.
  - destruct (cost_buffer _ false bs m R_object 0 (zlen m)) as [[x c]| | | |]; cbn [erase bind]; split; intros H; try discriminate;
      try (destruct H as (? & ? & H); discriminate); [now exists x, c|reflexivity].
Qed.
Print Assumptions c51_same.

(** ** Validating a buffer visits each place of the value it holds once *)
Theorem c51_exact s bs m c v : valid_cost s bs m = Ok (true, c) -> walk bs m = Ok v -> c = nodes v.
Proof. intros C W. exact (cost_nodes s bs m _ _ _ _ _ _ _ C W). Qed.
Print Assumptions c51_exact.

(** ** The library's own buffers cost no more visits than they have bytes *)
Theorem c51_finalized fs m bs : heap_value (VObj fs) -> null_free (VObj fs) -> finalize (VObj fs) = Ok m -> bs mod 8 = 0 ->
  valid_cost true bs m = Ok (true, nodes (VObj fs)) /\ nodes (VObj fs) <= zlen m.
Proof.
  intros H N F A. destruct (c07_accepts_finalized fs m bs H N F A) as [V _]. destruct (c01_finalize_then_read_back fs m bs H F A) as [W _].
  apply (proj1 (c51_same bs m true)) in V. destruct V as [c V]. pose proof (c51_exact _ _ _ _ _ V W) as ->. split; [exact V|].
  pose proof (obj_nodes_esize fs). destruct (finalize_root fs m bs H F A) as (_ & L & _). lia.
Qed.
Print Assumptions c51_finalized.

(** The demo object of C07. *)
Example c51_finalized_example : heap_value demo_nonnull /\ null_free demo_nonnull /\
  match finalize demo_nonnull with
  | Ok m => valid_cost true 0 m = Ok (true, nodes demo_nonnull) /\ valid_cost false 8 m = Ok (true, nodes demo_nonnull) /\
            walk 0 m = Ok demo_nonnull /\ 8 < nodes demo_nonnull < zlen m
  | _ => False
  end.
Proof. split; [exact (proj1 c07_example)|]. split; [exact (proj1 (proj2 c07_example))|]. vm_compute. repeat split; congruence. Qed.

(** ** Whatever the bytes, there is a bound *)
Theorem c51_bound s bs m b c : valid_cost s bs m = Ok (b, c) -> 1 <= c <= 2 ^ zlen m.
Proof. intros E. exact (cost_bound s bs m _ _ _ _ _ _ (zlen_nonneg m) E). Qed.
Print Assumptions c51_bound.

(** ** But nothing like a linear one.
    The documentation offers is_valid and validate for buffers from sources that are not
    trusted (dart.h:13687-13721).  Validation asks that the elements of an array begin at
    increasing offsets, not that they end before the next begins; so they may share their
    bytes, and 24 more bytes make the work grow as the Fibonacci numbers do. *)
Theorem c51_linear_refuted n : Z.of_nat n < 2 ^ 27 ->
  exists m v c, zlen m = 24 * (Z.of_nat n + 2) /\
    is_valid 0 m = Ok true /\ validate 0 m = Ok tt /\ valid_cost true 0 m = Ok (true, c) /\ walk 0 m = Ok v /\
    2 ^ (Z.of_nat n / 2) <= c /\ c = nodes v.
Proof.
  intros L. exists (bomb n), (VObj [([], tree n)]), (2 + nodes (tree n)).
  destruct (bomb_goes_off n true L) as [C W]. destruct (bomb_goes_off n false L) as [C' _]. pose proof (tree_big n).
  split; [rewrite zlen_bomb; unfold root_total; lia|].
  split; [apply (proj1 (c51_same 0 (bomb n) true)); eexists; exact C|].
  split; [apply (proj2 (c51_same 0 (bomb n) true)); eexists; eexists; exact C'|].
  split; [exact C|]. split; [exact W|]. split; [lia|]. exact (c51_exact _ _ _ _ _ C W).
Qed.
Print Assumptions c51_linear_refuted.

(** Fifteen more arrays, 360 more bytes: from 7 visits to over eight thousand. *)
Example c51_linear_example :
  (zlen (bomb 3), valid_cost true 0 (bomb 3)) = (120, Ok (true, 7)) /\
  (zlen (bomb 18), valid_cost true 0 (bomb 18)) = (480, Ok (true, 8363)).
Proof. vm_compute. split; reflexivity. Qed.

(** ** Looking a key up is logarithmic, in any bytes whatever, and finding one takes at least a look *)
Theorem c51_probes m o key r c : probe_key m o key = Ok (r, c) ->
  get_key m o key = Ok r /\ exists n, agg_count m o = Ok n /\ 0 <= c <= Z.log2_up (n + 1) /\ (r <> None -> 1 <= c).
Proof.
  unfold probe_key, get_key. intros E. apply bind_Ok in E. destruct E as (n & A & E). rewrite A. cbn [bind]. split.
  { rewrite <- probe_erase, E. reflexivity. }
  exists n. split; [reflexivity|]. enough (0 <= c <= Z.log2_up (n + 1)) by (split; [assumption|exact (probe_found _ _ _ _ _ _ _ _ E)]).
  unfold agg_count in A. apply rd_le_range in A.
  pose proof (Z.log2_up_nonneg (n + 1)). rewrite <- (Z2Nat.id (Z.log2_up (n + 1))) by lia.
  eapply probe_bound; [| |exact E]; [lia|]. rewrite Z2Nat.id by lia.
  assert (B : n + 1 <= 2 ^ Z.log2_up (n + 1)). { destruct (Z.eq_dec n 0) as [->|]; [vm_compute; congruence|]. apply Z.log2_up_spec. lia. }
  enough (to_signed 32 n <= n) by lia. unfold to_signed. rewrite (Z.mod_small n) by lia.
  match goal with |- context [if ?x then _ else _] => destruct x; lia end.
Qed.
Print Assumptions c51_probes.

(** Seven keys: the one in the middle at once, the others in at most three looks. *)
Definition seven : value := VObj [(b "a", VInt 1); (b "b", VInt 2); (b "c", VInt 3); (b "d", VInt 4); (b "e", VInt 5); (b "f", VInt 6); (b "g", VInt 7)].
Example c51_probes_example :
  match finalize seven with
  | Ok m => map (fun k => match probe_key m 0 (b k) with Ok (Some (i, _, _), c) => (i, c) | Ok (None, c) => (-1, c) | _ => (-2, 0) end)
              ["a"; "b"; "d"; "g"; "zz"]
            = [(0, 3); (1, 2); (3, 1); (6, 3); (-1, 3)]
            /\ agg_count m 0 = Ok 7 /\ Z.log2_up 8 = 3
  | _ => False
  end.
Proof. vm_compute. split; [|split]; reflexivity. Qed.
