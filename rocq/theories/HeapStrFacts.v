(** Mutable strings keep their bytes. *)

From Coq Require Import ZArith List Lia Bool.
From Coq Require Import ZifyBool ZifyNat ZifyN.
From Verif Require Import Base BaseFacts Keys KeysFacts Wire HeapStr StrViewFacts.
Import ListNotations.
Open Scope Z_scope.

(** Writing two pieces and a terminator into a big enough block. *)
Lemma wr_pieces (junk : mem) (base ext : str) : zlen base + zlen ext + 1 <= zlen junk ->
  exists tail, zlen tail = zlen junk - (zlen base + zlen ext + 1) /\
    (m <- wr junk 0 base ;; m <- wr m (zlen base) ext ;; wr m (zlen base + zlen ext) [x00]) =
      Ok (base ++ ext ++ [x00] ++ tail).
Proof.
  intros L. destruct (split_zlen junk (zlen base)) as (j1 & r1 & -> & L1); [zlia|].
  rewrite zlen_app in L. destruct (split_zlen r1 (zlen ext)) as (j2 & r2 & -> & L2); [zlia|].
  rewrite zlen_app in L. destruct r2 as [|c tail]; [change (zlen (@nil byte)) with 0 in L; lia|].
  exists tail. split; [rewrite !zlen_app, zlen_cons; lia|].
  pose proof (wr_app [] j1 (j2 ++ c :: tail) 0 base) as W. cbn [app] in W.
  rewrite W by (reflexivity || assumption). cbn [bind].
  rewrite (wr_app base j2 (c :: tail) (zlen base) ext) by (reflexivity || assumption). cbn [bind].
  replace (base ++ ext ++ c :: tail) with ((base ++ ext) ++ [c] ++ tail) by (rewrite <- app_assoc; reflexivity).
  rewrite (wr_app (base ++ ext) [c] tail _ [x00]) by (rewrite ?zlen_app; reflexivity). rewrite <- app_assoc. reflexivity.
Qed.

Lemma rd_front (s post : mem) : rd (s ++ post) 0 (zlen s) = Ok s.
Proof. apply (rd_app [] s post); reflexivity. Qed.

Lemma c_string_spec s tail : c_string (s ++ [x00] ++ tail) = Ok (cstr s).
Proof.
  induction s as [|c s IH]; [reflexivity|]. cbn [app c_string cstr]. destruct (byte_eqb c x00); [reflexivity|].
  cbn [app] in IH. rewrite IH. reflexivity.
Qed.

Lemma strcmp_spec s : forall t u v,
  exists q, strcmp_eq (s ++ [x00] ++ u) (t ++ [x00] ++ v) = Ok q /\ (q = true <-> cstr s = cstr t).
Proof.
  induction s as [|c s IH]; intros [|d t] u v; cbn [app strcmp_eq cstr].
  - exists true. split; [reflexivity|]. tauto.
  - destruct (byte_eqb_spec d x00) as [->|N].
    + exists true. split; [reflexivity|]. tauto.
    + destruct (byte_eqb_spec x00 d) as [<-|_]; [congruence|]. exists false. split; [reflexivity|]. split; discriminate.
  - destruct (byte_eqb_spec c x00) as [->|N].
    + exists true. split; [reflexivity|]. tauto.
    + exists false. split; [reflexivity|]. split; discriminate.
  - destruct (byte_eqb_spec c d) as [<-|N].
    + destruct (byte_eqb c x00); [exists true; split; [reflexivity|tauto]|].
      destruct (IH t u v) as (q & E & Q). exists q. cbn [app] in E. split; [exact E|]. rewrite Q. split; congruence.
    + exists false. split; [reflexivity|]. split; [discriminate|].
      destruct (byte_eqb_spec c x00), (byte_eqb_spec d x00); intros E; congruence.
Qed.

(** What memory holds after make_string. *)
Definition string_held (s : str) (h : hstring) : Prop :=
  match h with
  | Inline m => zlen s <= 23 /\ exists tail, m = s ++ [x00] ++ tail /\ zlen m = 24 /\ rd m left_at 1 = Ok [z2b (23 - zlen s)]
  | Dynamic m len => 23 < zlen s /\ len = zlen s /\ exists tail, m = s ++ [x00] ++ tail
  end.

Lemma make_string_held junk junk' base ext : zlen junk = 24 -> zlen junk' = zlen base + zlen ext + 1 ->
  exists h, make_string junk junk' base ext = Ok h /\ string_held (base ++ ext) h.
Proof.
  intros LJ LJ'. unfold make_string. cbv zeta. unfold identify_string. set (len := zlen base + zlen ext).
  assert (K : (((if 65535 <? len then R_big_string else if sso_bytes <? len then R_string else R_small_string) =? R_string)
    || ((if 65535 <? len then R_big_string else if sso_bytes <? len then R_string else R_small_string) =? R_big_string)) = (23 <? len)).
  { unfold sso_bytes. destruct (Z.ltb_spec 65535 len), (Z.ltb_spec 23 len); try reflexivity; lia. }
  rewrite K. destruct (Z.ltb_spec 23 len) as [L|L].
  - destruct (wr_pieces junk' base ext) as (tail & LT & E); [lia|].
    exists (Dynamic (base ++ ext ++ [x00] ++ tail) len). split.
    + apply bind_Ok in E. destruct E as (m1 & -> & E). cbn [bind]. apply bind_Ok in E. destruct E as (m2 & -> & E). cbn [bind].
      fold len in E. rewrite E. reflexivity.
    + split; [rewrite zlen_app; exact L|]. split; [rewrite zlen_app; reflexivity|]. exists tail. rewrite <- app_assoc. reflexivity.
  - destruct (wr_pieces junk base ext) as (tail & LT & E); [unfold len in *; lia|].
    assert (W : (m <- wr junk 0 base ;; m <- wr m (zlen base) ext ;; m <- wr m len [x00] ;;
      m <- wr m left_at [z2b (sso_bytes mod 256 - len mod 256)] ;; Ok (Inline m)) =
      (m <- wr (base ++ ext ++ [x00] ++ tail) left_at [z2b (sso_bytes mod 256 - len mod 256)] ;; Ok (Inline m))).
    { apply bind_Ok in E. destruct E as (m1 & -> & E). cbn [bind]. apply bind_Ok in E. destruct E as (m2 & -> & E). cbn [bind].
      fold len in E. rewrite E. reflexivity. }
    rewrite W. clear W E. unfold sso_bytes. rewrite (Z.mod_small len 256) by (pose proof (zlen_nonneg base); pose proof (zlen_nonneg ext); unfold len in *; lia).
    change (23 mod 256) with 23. set (lb := z2b (23 - len)).
    assert (LM : zlen ((base ++ ext) ++ [x00]) = len + 1) by (rewrite !zlen_app; reflexivity).
    destruct (Z.eq_dec len 23) as [E|NE].
    + (* the terminator and [left] are one byte *)
      assert (tail = []) by (apply zlen_0_nil; unfold len in *; lia). subst tail.
      change (base ++ ext ++ [x00] ++ []) with (base ++ ext ++ [x00]). rewrite app_assoc.
      replace ((base ++ ext) ++ [x00]) with ((base ++ ext) ++ [x00] ++ []) by (cbn [app]; reflexivity).
      rewrite (wr_app (base ++ ext) [x00] [] left_at [lb]) by (rewrite ?zlen_app; unfold left_at, len in *; try reflexivity; lia).
      cbn [bind]. assert (lb = x00) as -> by (unfold lb; rewrite E; reflexivity).
      exists (Inline ((base ++ ext) ++ [x00] ++ [])). split; [reflexivity|]. cbn [string_held]. rewrite zlen_app. fold len.
      split; [lia|]. exists []. split; [reflexivity|]. split; [rewrite !zlen_app; cbn; lia|].
      rewrite E. apply rd_app; [rewrite zlen_app; unfold left_at, len in *; lia|reflexivity].
    + destruct (split_zlen tail (22 - len)) as (t1 & t2 & -> & Lt); [unfold len in *; lia|].
      rewrite zlen_app in LT. destruct t2 as [|c [|d t2]].
      * change (zlen (@nil byte)) with 0 in LT. unfold len in *; lia.
      * replace (base ++ ext ++ [x00] ++ t1 ++ [c]) with (((base ++ ext) ++ [x00] ++ t1) ++ [c] ++ [])
          by (rewrite <- !app_assoc; reflexivity).
        rewrite (wr_app ((base ++ ext) ++ [x00] ++ t1) [c] [] left_at [lb])
          by (rewrite ?zlen_app; unfold left_at, len in *; change (zlen [x00]) with 1; try reflexivity; lia).
        cbn [bind]. exists (Inline (((base ++ ext) ++ [x00] ++ t1) ++ [lb] ++ [])). split; [reflexivity|]. cbn [string_held].
        rewrite zlen_app. fold len. split; [lia|]. exists (t1 ++ [lb]). split; [rewrite <- !app_assoc; reflexivity|].
        split; [rewrite !zlen_app; change (zlen [x00]) with 1; change (zlen [lb]) with 1; change (zlen (@nil byte)) with 0; unfold len in *; lia|].
        apply rd_app; [rewrite !zlen_app; change (zlen [x00]) with 1; unfold left_at, len in *; lia|reflexivity].
      * rewrite !zlen_cons in LT. zlia.
Qed.

Lemma held_strv s h : string_held s h -> h_strv h = Ok s.
Proof.
  destruct h as [m|m len]; cbn [string_held h_strv].
  - intros (L & tail & E & LM & R). rewrite R. cbn [bind]. cbn [le_dec]. rewrite b2z_z2b, Z.mod_small by zlia.
    unfold sso_bytes. replace (23 - (23 - zlen s + 256 * 0)) with (zlen s) by lia. rewrite E. apply rd_front.
  - intros (L & -> & tail & ->). apply rd_front.
Qed.

Lemma held_str s h : string_held s h -> h_str h = Ok (cstr s).
Proof.
  destruct h as [m|m len]; cbn [string_held h_str].
  - intros (L & tail & -> & _). apply c_string_spec.
  - intros (L & -> & tail & ->). apply c_string_spec.
Qed.

Lemma held_eqb s t h g : string_held s h -> string_held t g ->
  exists q, hstring_eqb h g = Ok q /\ (q = true <-> zlen s = zlen t /\ cstr s = cstr t).
Proof.
  destruct h as [m|m len], g as [n|n len']; cbn [string_held hstring_eqb].
  - intros (L & u & E & _ & R) (L' & v & E' & _ & R'). rewrite R, R'. cbn [bind le_dec].
    rewrite !b2z_z2b, !Z.mod_small by zlia. destruct (Z.eqb_spec (23 - zlen s + 256 * 0) (23 - zlen t + 256 * 0)) as [EQ|NE].
    + rewrite E, E'. destruct (strcmp_spec s t u v) as (q & EQ' & Q). exists q. split; [exact EQ'|]. rewrite Q. split; [|tauto].
      intros ->. split; [lia|reflexivity].
    + exists false. split; [reflexivity|]. split; [discriminate|]. lia.
  - intros (L & _) (L' & _). exists false. split; [reflexivity|]. split; [discriminate|]. lia.
  - intros (L & _) (L' & _). exists false. split; [reflexivity|]. split; [discriminate|]. lia.
  - intros (L & -> & u & ->) (L' & -> & v & ->). destruct (Z.eqb_spec (zlen s) (zlen t)) as [EQ|NE].
    + destruct (strcmp_spec s t u v) as (q & EQ' & Q). exists q. split; [exact EQ'|]. rewrite Q. tauto.
    + exists false. split; [reflexivity|]. split; [discriminate|]. lia.
Qed.
