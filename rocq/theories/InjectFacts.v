(** inject and project on a mutable object (HeapOps.v) as map operations. *)

From Coq Require Import ZArith List Bool Sorted Lia ZifyBool ZifyNat ZifyN.
From Verif Require Import Base BaseFacts Keys KeysFacts Wire Spec HeapOps HeapFacts HistFacts.
Import ListNotations.
Open Scope Z_scope.

Local Notation str_dec := (list_eq_dec Byte.byte_eq_dec).

Definition str_pairs (ps : list (str * value)) : list (value * value) :=
  map (fun p => (VStr (fst p), snd p)) ps.

Theorem h_inject_ok ps : forall fs, okmap fs -> Forall (fun p => zlen (fst p) <= 65535) ps ->
  exists fs', h_inject (VObj fs) (str_pairs ps) = Ok (VObj fs') /\ okmap fs' /\
    forall k, lookup k fs' = match lookup k (rev ps) with Some x => Some x | None => lookup k fs end.
Proof.
  induction ps as [|[k x] ps IH]; intros fs [S KL] F; cbn [str_pairs map h_inject].
  - exists fs. repeat split; auto.
  - inversion F as [|? ? F1 F2]; subst. cbn [fst snd] in *.
    destruct (h_insert_spec fs S k x F1) as (fs1 & i & -> & S1 & L1 & _). cbn [bind].
    destruct (IH fs1) as (fs2 & E2 & K2 & L2); [|assumption|].
    { split; [assumption|]. intros j. rewrite L1. destruct (str_dec j k) as [->|]; auto. }
    exists fs2. split; [exact E2|]. split; [assumption|]. intros j. rewrite L2. cbn [rev].
    rewrite lookup_app, L1. destruct (lookup j (rev ps)); [reflexivity|]. cbn [lookup].
    destruct (str_dec j k); reflexivity.
Qed.

(** The first pair that cannot be inserted decides the exception. *)
Theorem h_inject_throws ps k x r : forall fs, okmap fs -> Forall (fun p => zlen (fst p) <= 65535) ps ->
  (match k with VStr s => 65535 < zlen s | _ => True end) ->
  h_inject (VObj fs) (str_pairs ps ++ (k, x) :: r) =
    Throw (match k with VStr _ => invalid_argument | _ => type_error end).
Proof.
  induction ps as [|[k0 x0] ps IH]; intros fs [S KL] F B; cbn [str_pairs map app h_inject].
  - destruct k; try reflexivity. cbn [h_insert]. replace (65535 <? zlen s) with true by lia. reflexivity.
  - inversion F as [|? ? F1 F2]; subst. cbn [fst snd] in *.
    destruct (h_insert_spec fs S k0 x0 F1) as (fs1 & i & -> & S1 & L1 & _). cbn [bind].
    apply (IH fs1); [|assumption|assumption].
    split; [assumption|]. intros j. rewrite L1. destruct (str_dec j k0) as [->|]; auto.
Qed.

Lemma h_project_loop_ok fs keys : okmap fs -> forall acc, okmap acc ->
  exists acc', h_project_loop (VObj fs) keys (VObj acc) = Ok (VObj acc') /\ okmap acc' /\
    forall k, lookup k acc' =
      if in_dec str_dec k keys then match lookup k fs with Some x => Some x | None => lookup k acc end
      else lookup k acc.
Proof.
  intros [S KL]. induction keys as [|k ks IH]; intros acc [SA KA]; cbn [h_project_loop].
  - exists acc. repeat split; auto.
  - rewrite (h_has_key_spec fs S). cbn [bind]. destruct (lookup k fs) as [x|] eqn:Q.
    + rewrite (h_get_spec fs S), Q. cbn [bind].
      assert (K : zlen k <= 65535) by (apply KL; congruence).
      destruct (h_insert_spec acc SA k x K) as (a1 & i & -> & S1 & L1 & _). cbn [bind].
      destruct (IH a1) as (a2 & E2 & K2 & L2).
      { split; [assumption|]. intros j. rewrite L1. destruct (str_dec j k) as [->|]; auto. }
      exists a2. split; [exact E2|]. split; [assumption|]. intros j. rewrite L2, L1.
      destruct (str_dec j k) as [->|N].
      * rewrite Q. destruct (in_dec str_dec k ks); destruct (in_dec str_dec k (k :: ks)) as [|NN]; try reflexivity;
          elim NN; left; reflexivity.
      * destruct (in_dec str_dec j ks) as [I|I]; destruct (in_dec str_dec j (k :: ks)) as [I'|I']; try reflexivity.
        -- elim I'. right. assumption.
        -- destruct I' as [->|]; [congruence|contradiction].
    + destruct (IH acc (conj SA KA)) as (a2 & E2 & K2 & L2). exists a2. split; [exact E2|]. split; [assumption|].
      intros j. rewrite L2. destruct (str_dec j k) as [->|N].
      * rewrite Q. destruct (in_dec str_dec k ks), (in_dec str_dec k (k :: ks)); reflexivity.
      * destruct (in_dec str_dec j ks) as [I|I]; destruct (in_dec str_dec j (k :: ks)) as [I'|I']; try reflexivity.
        -- elim I'. right. assumption.
        -- destruct I' as [->|]; [congruence|contradiction].
Qed.

Theorem h_project_ok fs keys : okmap fs ->
  exists fs', h_project (VObj fs) keys = Ok (VObj fs') /\ okmap fs' /\
    forall k, lookup k fs' = if in_dec str_dec k keys then lookup k fs else None.
Proof.
  intros K. destruct (h_project_loop_ok fs keys K []) as (fs' & E & K' & L).
  { split; [constructor|]. cbn. congruence. }
  exists fs'. split; [exact E|]. split; [assumption|]. intros k. rewrite L. cbn [lookup].
  destruct (in_dec str_dec k keys); [|reflexivity]. destruct (lookup k fs); reflexivity.
Qed.
