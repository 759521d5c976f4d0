(** The string view functions against their specification. *)

From Coq Require Import ZArith List Lia Bool.
From Coq Require Import ZifyBool ZifyNat ZifyN.
From Verif Require Import Base BaseFacts Keys KeysFacts Spec StrView SpecStr.
Import ListNotations.
Open Scope Z_scope.

Lemma rd_at (s : str) o n : 0 <= o -> 0 <= n -> o + n <= zlen s ->
  rd s o n = Ok (firstn (Z.to_nat n) (skipn (Z.to_nat o) s)).
Proof. intros. unfold rd. replace (0 <=? o) with true by lia. replace (0 <=? n) with true by lia.
  replace (o + n <=? zlen s) with true by lia. reflexivity. Qed.

Lemma split_zlen {A} (s : list A) i : 0 <= i <= zlen s -> exists pre post, s = pre ++ post /\ zlen pre = i.
Proof.
  intros H. exists (firstn (Z.to_nat i) s), (skipn (Z.to_nat i) s). split; [symmetry; apply firstn_skipn|].
  unfold zlen in *. rewrite firstn_length. lia.
Qed.

Lemma skipn_zlen {A} (pre post : list A) : skipn (Z.to_nat (zlen pre)) (pre ++ post) = post.
Proof. unfold zlen. rewrite Nat2Z.id, skipn_app, Nat.sub_diag, skipn_all. reflexivity. Qed.
Lemma firstn_zlen {A} (pre post : list A) : firstn (Z.to_nat (zlen pre)) (pre ++ post) = pre.
Proof. unfold zlen. rewrite Nat2Z.id, firstn_app, Nat.sub_diag, firstn_all, app_nil_r. reflexivity. Qed.

Lemma app_split {A} (a b c d : list A) : a ++ b = c ++ d -> zlen a = zlen c -> a = c /\ b = d.
Proof.
  intros E L. assert (Ha : firstn (Z.to_nat (zlen a)) (a ++ b) = a) by apply firstn_zlen.
  rewrite E, L, firstn_zlen in Ha. subst c. split; [reflexivity|]. apply app_inv_head in E. exact E.
Qed.

Lemma occurs_range t s i : occurs t s i -> 0 <= i /\ i + zlen t <= zlen s.
Proof. intros (pre & post & -> & <-). rewrite !zlen_app. zlia. Qed.

Lemma sv_substr_ok s pre mid post : s = pre ++ mid ++ post ->
  forall c, zlen mid <= c -> (post = [] \/ c = zlen mid) -> sv_substr s (zlen pre) c = Ok mid.
Proof.
  intros -> c Hc E. unfold sv_substr. rewrite !zlen_app. replace (_ <? zlen pre) with false by zlia.
  assert (M : Z.min c (zlen pre + (zlen mid + zlen post) - zlen pre) = zlen mid).
  { destruct E as [-> | ->]; [change (zlen (@nil byte)) with 0|]; zlia. }
  rewrite M. rewrite rd_at by (rewrite ?zlen_app; zlia). rewrite skipn_zlen, firstn_zlen. reflexivity.
Qed.

(** Comparing at an offset inside the string finds out whether the target is
    there. *)
Lemma compare_at_spec s t o : 0 <= o <= zlen s ->
  exists c, sv_compare_at s o (zlen t) t = Ok c /\ (c = 0 <-> occurs t s o).
Proof.
  intros H. destruct (split_zlen s o H) as (pre & rest & -> & <-). unfold sv_compare_at.
  destruct (Z.leb_spec (zlen t) (zlen rest)) as [L|L].
  - destruct (split_zlen rest (zlen t)) as (mid & post & -> & Lm); [zlia|].
    rewrite (sv_substr_ok _ pre mid post eq_refl (zlen t)) by (rewrite ?Lm; auto; lia). cbn [bind].
    eexists. split; [reflexivity|]. destruct (sv_compare_spec mid t) as (_ & E & _). rewrite E. split.
    + intros ->. exists pre, post. auto.
    + intros (pre' & post' & E' & L'). symmetry in L'. destruct (app_split _ _ _ _ E' L') as [_ E2].
      apply app_split in E2; [|assumption]. apply E2.
  - rewrite (sv_substr_ok _ pre rest []) by (rewrite ?app_nil_r; auto; lia). cbn [bind].
    eexists. split; [reflexivity|]. destruct (sv_compare_spec rest t) as (_ & E & _). rewrite E. split.
    + intros ->. lia.
    + intros O. apply occurs_range in O. rewrite zlen_app in O. lia.
Qed.

Lemma wrap_small z : 0 <= z < 2 ^ 64 -> wrap z = z.
Proof. intros. apply Z.mod_small. assumption. Qed.

Lemma find_loop_spec s t : zlen s < 2 ^ 63 -> zlen t < 2 ^ 63 -> forall fuel o, 0 <= o <= zlen s + 1 ->
  zlen s + 2 - o <= Z.of_nat fuel ->
  exists r, sv_find_loop fuel s t o = Ok r /\ first_from (occurs t s) o npos r.
Proof.
  intros Ls Lt. induction fuel as [|fuel IH]; intros o Ho F; [lia|]. cbn [sv_find_loop].
  rewrite wrap_small by (change (2 ^ 64) with (2 * 2 ^ 63); zlia). destruct (Z.leb_spec (o + zlen t) (zlen s)) as [L|L].
  - destruct (compare_at_spec s t o) as (c & -> & C); [zlia|]. cbn [bind]. destruct (Z.eqb_spec c 0) as [E|E].
    + exists o. split; [reflexivity|]. left. split; [lia|]. split; [tauto|]. intros; lia.
    + rewrite wrap_small by (change (2 ^ 64) with (2 * 2 ^ 63); zlia).
      destruct (IH (o + 1)) as (r & -> & R); [zlia|zlia|]. exists r. split; [reflexivity|].
      destruct R as [(R1 & R2 & R3)|(R1 & R2)]; [left|right].
      * split; [lia|]. split; [assumption|]. intros j Hj. destruct (Z.eq_dec j o) as [->|]; [tauto|apply R3; lia].
      * split; [assumption|]. intros j Hj. destruct (Z.eq_dec j o) as [->|]; [tauto|apply R2; lia].
  - exists npos. split; [reflexivity|]. right. split; [reflexivity|]. intros j Hj O. apply occurs_range in O. lia.
Qed.

Lemma sv_find_spec s t o : zlen s < 2 ^ 63 -> zlen t < 2 ^ 63 -> 0 <= o -> o + zlen t < 2 ^ 64 ->
  exists r, sv_find s t o = Ok r /\ first_from (occurs t s) o npos r.
Proof.
  intros Ls Lt Ho B. unfold sv_find. rewrite wrap_small by zlia. destruct (Z.ltb_spec (zlen s) (zlen t + o)) as [L|L].
  - exists npos. split; [reflexivity|]. right. split; [reflexivity|]. intros j Hj O. apply occurs_range in O. lia.
  - apply find_loop_spec; [assumption|assumption|zlia|unfold zlen; lia].
Qed.

Lemma sv_find_wraps s t o : zlen s < 2 ^ 63 -> zlen t < 2 ^ 63 -> o < 2 ^ 64 -> 2 ^ 64 <= o + zlen t ->
  sv_find s t o = if zlen s <? o + zlen t - 2 ^ 64 then Ok npos else Throw out_of_range.
Proof.
  intros Ls Lt Ho B. unfold sv_find.
  assert (W : forall x, x = o + zlen t -> wrap x = o + zlen t - 2 ^ 64).
  { intros x ->. unfold wrap, size_max. symmetry. apply Z.mod_unique_pos with (q := 1); [|lia].
    change (2 ^ 64) with (2 * 2 ^ 63) in *. lia. }
  rewrite W by lia. destruct (zlen s <? _) eqn:E; [reflexivity|]. cbn [sv_find_loop]. rewrite W by lia.
  replace (_ <=? zlen s) with true by lia. unfold sv_compare_at, sv_substr.
  replace (zlen s <? o) with true by (change (2 ^ 64) with (2 * 2 ^ 63) in *; lia). reflexivity.
Qed.

Lemma rfind_loop_spec s t safe : zlen s < 2 ^ 63 -> zlen t <= safe -> forall fuel o, 0 <= o <= zlen s ->
  o + 2 <= Z.of_nat fuel ->
  (exists r, sv_rfind_loop fuel s t safe o = Ok r /\ r <= o /\ occurs t s r /\ forall j, r < j <= o -> ~ occurs t s j) \/
  (sv_rfind_loop fuel s t safe o = Throw out_of_range /\ forall j, j <= o -> ~ occurs t s j).
Proof.
  intros Ls Lt. induction fuel as [|fuel IH]; intros o Ho F; [lia|]. cbn [sv_rfind_loop].
  replace (0 <=? safe - zlen t) with true by lia.
  destruct (compare_at_spec s t o) as (c & -> & C); [zlia|]. cbn [bind]. destruct (Z.eqb_spec c 0) as [E|E].
  - left. exists o. split; [reflexivity|]. split; [lia|]. split; [tauto|]. intros; lia.
  - destruct (Z.eq_dec o 0) as [->|N].
    + right. destruct fuel as [|fuel]; [lia|]. cbn [sv_rfind_loop]. replace (0 <=? safe - zlen t) with true by lia.
      change (wrap (0 - 1)) with (2 ^ 64 - 1). unfold sv_compare_at, sv_substr.
      replace (zlen s <? 2 ^ 64 - 1) with true by (change (2 ^ 64) with (2 * 2 ^ 63); lia). split; [reflexivity|].
      intros j Hj O. destruct (Z.eq_dec j 0) as [->|]; [tauto|]. apply occurs_range in O. lia.
    + rewrite wrap_small by (change (2 ^ 64) with (2 * 2 ^ 63); lia).
      destruct (IH (o - 1)) as [(r & -> & R1 & R2 & R3)|(-> & R)]; [lia|lia| |].
      * left. exists r. split; [reflexivity|]. split; [lia|]. split; [assumption|].
        intros j Hj. destruct (Z.eq_dec j o) as [->|]; [tauto|apply R3; lia].
      * right. split; [reflexivity|]. intros j Hj. destruct (Z.eq_dec j o) as [->|]; [tauto|apply R; lia].
Qed.

(** ** Character classes *)

Lemma occurs_char s c i : occurs [c] s i <-> exists pre post, s = pre ++ c :: post /\ zlen pre = i.
Proof. reflexivity. Qed.

Lemma find_char_spec t c : zlen t < 2 ^ 63 ->
  exists r, sv_find_char t c 0 = Ok r /\ (r = npos <-> ~ In c t).
Proof.
  intros L. destruct (sv_find_spec t [c] 0) as (r & E & R); [assumption|reflexivity|lia|reflexivity|].
  exists r. split; [exact E|]. destruct R as [(R1 & R2 & R3)|(R1 & R2)].
  - pose proof (occurs_range _ _ _ R2) as B. destruct R2 as (pre & post & -> & _). split; intros H.
    + exfalso. subst r. unfold npos, size_max in B. change (2 ^ 64) with (2 * 2 ^ 63) in B. zlia.
    + exfalso. apply H. apply in_or_app. right. left. reflexivity.
  - split; [|auto]. intros _ I. apply in_split in I. destruct I as (pre & post & ->).
    apply (R2 (zlen pre)); [zlia|]. exists pre, post. auto.
Qed.

Lemma one_of_spec t c : zlen t < 2 ^ 63 -> exists q, is_one_of t c = Ok q /\ (q = true <-> In c t).
Proof.
  intros L. destruct (find_char_spec t c L) as (r & E & R). unfold is_one_of. rewrite E. cbn [bind].
  eexists. split; [reflexivity|]. destruct (in_dec Byte.byte_eq_dec c t); destruct (Z.eqb_spec r npos); cbn [negb]; intuition discriminate.
Qed.
Lemma none_of_spec t c : zlen t < 2 ^ 63 -> exists q, is_none_of t c = Ok q /\ (q = true <-> ~ In c t).
Proof.
  intros L. destruct (find_char_spec t c L) as (r & E & R). unfold is_none_of. rewrite E. cbn [bind].
  eexists. split; [reflexivity|]. destruct (in_dec Byte.byte_eq_dec c t); destruct (Z.eqb_spec r npos); intuition discriminate.
Qed.

Lemma find_if_spec p (P : byte -> Prop) : (forall c, exists q, p c = Ok q /\ (q = true <-> P c)) -> forall l,
  exists n, find_if p l = Ok n /\
    ((n = zlen l /\ Forall (fun c => ~ P c) l) \/
     (exists pre c post, l = pre ++ c :: post /\ zlen pre = n /\ n < zlen l /\ P c /\ Forall (fun c => ~ P c) pre)).
Proof.
  intros Hp. induction l as [|c l (n & E & H)].
  - exists 0. split; [reflexivity|]. left. split; [reflexivity|constructor].
  - cbn [find_if]. destruct (Hp c) as (q & -> & Q). cbn [bind]. destruct q.
    + exists 0. split; [reflexivity|]. right. exists [], c, l. split; [reflexivity|]. split; [reflexivity|].
      split; [rewrite zlen_cons; zlia|]. split; [tauto|constructor].
    + rewrite E. cbn [bind]. exists (n + 1). split; [reflexivity|].
      assert (NP : ~ P c) by (intros X; apply Q in X; discriminate).
      destruct H as [(-> & F)|(pre & d & post & -> & <- & B & PD & F)].
      * left. split; [rewrite zlen_cons; lia|constructor; assumption].
      * right. exists (c :: pre), d, post. split; [reflexivity|]. rewrite zlen_cons.
        split; [lia|]. split; [cbn [app]; rewrite zlen_cons; lia|]. split; [assumption|constructor; assumption].
Qed.

(** Characters with a property, by position. *)
Definition has_at (P : byte -> Prop) (s : str) (i : Z) : Prop :=
  exists pre c post, s = pre ++ c :: post /\ zlen pre = i /\ P c.

Lemma has_at_range P s i : has_at P s i -> 0 <= i < zlen s.
Proof. intros (pre & c & post & -> & <- & _). rewrite zlen_app, zlen_cons. zlia. Qed.

Lemma has_at_app P a s i : has_at P (a ++ s) (zlen a + i) <->  0 <= i /\ has_at P s i \/ i < 0 /\ has_at P a (zlen a + i).
Proof.
  split.
  - intros (pre & c & post & E & L & PC). destruct (Z.leb_spec (zlen a) (zlen pre)) as [B|B].
    + left. split; [lia|]. destruct (split_zlen pre (zlen a)) as (p1 & p2 & -> & L1); [zlia|].
      rewrite <- app_assoc in E. symmetry in E. apply app_split in E; [|assumption]. destruct E as [-> E2].
      exists p2, c, post. rewrite zlen_app in L. split; [auto|]. split; [lia|assumption].
    + right. split; [lia|]. destruct (split_zlen a (zlen pre)) as (p1 & p2 & -> & L1); [zlia|].
      rewrite <- app_assoc in E. apply app_split in E; [|assumption]. destruct E as [-> E2].
      destruct p2 as [|d p2]; [rewrite app_nil_r in B; lia|]. cbn [app] in E2. injection E2 as -> _.
      exists pre, c, p2. split; [reflexivity|]. split; [rewrite <- L; reflexivity|assumption].
  - intros [(H & pre & c & post & -> & <- & PC)|(H & pre & c & post & -> & L & PC)].
    + exists (a ++ pre), c, post. rewrite <- app_assoc, zlen_app. auto.
    + exists pre, c, (post ++ s). rewrite <- app_assoc. cbn [app]. auto.
Qed.

Lemma forall_not_at P s : Forall (fun c => ~ P c) s -> forall i, ~ has_at P s i.
Proof. intros F i (pre & c & post & -> & _ & PC). rewrite Forall_app in F. destruct F as [_ F]. inversion F. contradiction. Qed.

Lemma forall_not_rev P s : (forall i, ~ has_at P s i) -> Forall (fun c => ~ P c) s.
Proof.
  intros H. rewrite Forall_forall. intros c I PC. apply in_split in I. destruct I as (pre & post & ->).
  apply (H (zlen pre)). exists pre, c, post. auto.
Qed.

(** Searching forward from [o]. *)
Lemma forward_spec p P s o : (forall c, exists q, p c = Ok q /\ (q = true <-> P c)) -> 0 <= o < zlen s ->
  let rest := skipn (Z.to_nat o) s in
  exists n, find_if p rest = Ok n /\
    ((n = zlen rest /\ forall j, o <= j -> ~ has_at P s j) \/
     (n <> zlen rest /\ o <= o + n /\ has_at P s (o + n) /\ forall j, o <= j < o + n -> ~ has_at P s j)).
Proof.
  intros Hp Ho. cbv zeta. destruct (split_zlen s o) as (a & s' & -> & <-); [lia|]. rewrite skipn_zlen.
  destruct (find_if_spec p P Hp s') as (n & E & H). exists n. split; [exact E|].
  assert (AT : forall j, zlen a <= j -> has_at P (a ++ s') j -> has_at P s' (j - zlen a)).
  { intros j Hj X. replace j with (zlen a + (j - zlen a)) in X by lia. apply has_at_app in X. destruct X as [[_ X]|[X _]]; [exact X|lia]. }
  destruct H as [(-> & F)|(pre & c & post & -> & <- & B & PC & F)].
  - left. split; [reflexivity|]. intros j Hj X. apply (forall_not_at _ _ F (j - zlen a)). auto.
  - right. split; [lia|]. split; [zlia|]. split.
    + apply has_at_app. left. split; [zlia|]. exists pre, c, post. auto.
    + intros j Hj X. apply AT in X; [|lia]. destruct X as (q & d & r & E2 & L2 & PD).
      destruct (split_zlen pre (j - zlen a)) as (p1 & p2 & -> & L1); [lia|]. rewrite <- app_assoc in E2.
      apply app_split in E2; [|lia]. destruct E2 as [-> E2]. destruct p2 as [|d' p2]; [rewrite app_nil_r in *; lia|].
      cbn [app] in E2. injection E2 as -> _. rewrite Forall_app in F. destruct F as [_ F]. inversion F. contradiction.
Qed.

Lemma has_at_rev P s i : has_at P (rev s) i <-> has_at P s (zlen s - 1 - i).
Proof.
  split; intros (pre & c & post & E & L & PC).
  - apply (f_equal (@rev byte)) in E. rewrite rev_involutive, rev_app_distr in E. cbn [rev] in E.
    rewrite <- app_assoc in E. cbn [app] in E. exists (rev post), c, (rev pre). split; [exact E|]. split; [|assumption].
    rewrite E, zlen_app, zlen_cons. unfold zlen in *. rewrite !rev_length. lia.
  - subst s. exists (rev post), c, (rev pre). split; [rewrite rev_app_distr; cbn [rev]; rewrite <- app_assoc; reflexivity|].
    split; [|assumption]. rewrite zlen_app, zlen_cons in L. unfold zlen in *. rewrite !rev_length. lia.
Qed.

Lemma zlen_rev {A} (l : list A) : zlen (rev l) = zlen l.
Proof. unfold zlen. rewrite rev_length. reflexivity. Qed.
