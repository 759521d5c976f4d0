(** Properties of the library's string view: C35. *)

From Coq Require Import ZArith List Lia Bool String.
From Coq Require Import ZifyBool ZifyNat ZifyN.
From Verif Require Import Base BaseFacts Keys KeysFacts Spec StrView SpecStr StrViewFacts Demo.
Import ListNotations.
Open Scope string_scope.
Open Scope list_scope.
Open Scope Z_scope.

(** Comparison is unsigned lexicographic order. *)
Theorem c35_compare a c :
  (sv_compare a c < 0 <-> str_lt a c) /\ (sv_compare a c = 0 <-> a = c) /\ (0 < sv_compare a c <-> str_lt c a) /\
  (sv_eqb a c = true <-> a = c) /\ (sv_ltb a c = true <-> str_lt a c).
Proof.
  destruct (sv_compare_spec a c) as (A & B & C). split; [exact A|]. split; [exact B|]. split; [exact C|].
  unfold sv_eqb, sv_ltb. rewrite Z.eqb_eq, Z.ltb_lt. auto.
Qed.
Print Assumptions c35_compare.

(** Parts of a string. *)
Theorem c35_substr s o n : 0 <= o -> 0 <= n ->
  (zlen s < o -> sv_substr s o n = Throw out_of_range) /\
  (o <= zlen s -> exists pre mid post, s = pre ++ mid ++ post /\ zlen pre = o /\ zlen mid = Z.min n (zlen s - o) /\
     sv_substr s o n = Ok mid).
Proof.
  intros Ho Hn. split; intros H.
  - unfold sv_substr. replace (zlen s <? o) with true by lia. reflexivity.
  - destruct (split_zlen s o) as (pre & rest & -> & <-); [lia|]. rewrite zlen_app in *.
    destruct (Z.leb_spec n (zlen rest)) as [L|L].
    + destruct (split_zlen rest n) as (mid & post & -> & <-); [lia|]. rewrite zlen_app in *. exists pre, mid, post.
      split; [reflexivity|]. split; [reflexivity|]. split; [zlia|]. apply (sv_substr_ok _ pre mid post eq_refl); auto; lia.
    + exists pre, rest, []. rewrite app_nil_r. split; [reflexivity|]. split; [reflexivity|]. split; [zlia|].
      apply (sv_substr_ok _ pre rest []); [rewrite app_nil_r; reflexivity|lia|auto].
Qed.
Print Assumptions c35_substr.

Theorem c35_remove pre post :
  sv_remove_prefix (pre ++ post) (zlen pre) = Ok post /\ sv_remove_suffix (pre ++ post) (zlen post) = Ok pre.
Proof.
  unfold sv_remove_prefix, sv_remove_suffix. rewrite zlen_app. replace (zlen pre <=? _) with true by zlia.
  replace (zlen post <=? _) with true by zlia. rewrite skipn_zlen. split; [reflexivity|].
  replace (zlen pre + zlen post - zlen post) with (zlen pre) by lia. rewrite firstn_zlen. reflexivity.
Qed.
Print Assumptions c35_remove.

Theorem c35_at s i : 0 <= i ->
  sv_at s i = match nth_error s (Z.to_nat i) with Some c => Ok c | None => Throw out_of_range end.
Proof.
  intros Hi. unfold sv_at, sv_index. destruct (Z.leb_spec (zlen s) i) as [L|L].
  - destruct (nth_error s (Z.to_nat i)) eqn:E; [|reflexivity]. assert (nth_error s (Z.to_nat i) <> None) as N by congruence.
    apply nth_error_Some in N. unfold zlen in L. lia.
  - destruct (split_zlen s i) as (pre & rest & -> & <-); [lia|]. destruct rest as [|c rest]; [rewrite app_nil_r in L; lia|].
    rewrite rd_at by (rewrite ?zlen_app, ?zlen_cons; zlia). rewrite skipn_zlen. cbn [firstn Z.to_nat Pos.to_nat Pos.iter_op].
    unfold zlen. rewrite Nat2Z.id, nth_error_app2, Nat.sub_diag by lia. reflexivity.
Qed.
Print Assumptions c35_at.

(** The first and the last character, which an empty view does not have; starting or
    ending with a character. *)
Theorem c35_front_back s c d :
  (zlen (c :: s) < 2 ^ 63 ->
   sv_front (c :: s) = Ok c /\ sv_back (s ++ [c]) = Ok c /\
   sv_starts_with_char (c :: s) d = Ok (byte_eqb c d) /\ sv_ends_with_char (s ++ [c]) d = Ok (byte_eqb c d)) /\
  sv_front [] = Oob /\ sv_back [] = Oob /\ sv_starts_with_char [] d = Ok false /\ sv_ends_with_char [] d = Ok false.
Proof.
  split; [|split; [reflexivity|split; [reflexivity|split; reflexivity]]]. intros L.
  assert (F : sv_front (c :: s) = Ok c).
  { unfold sv_front, sv_index, rd. rewrite zlen_cons. pose proof (zlen_nonneg s).
    replace ((0 <=? 0) && (0 <=? 1) && (0 + 1 <=? 1 + zlen s)) with true by lia. reflexivity. }
  assert (K : sv_back (s ++ [c]) = Ok c).
  { unfold sv_back, sv_index, rd, wrap, size_max. rewrite zlen_app. pose proof (zlen_nonneg s). rewrite zlen_cons in L.
    replace (zlen [c]) with 1 by reflexivity. replace (zlen s + 1 - 1) with (zlen s) by lia.
    rewrite Z.mod_small by lia. replace ((0 <=? zlen s) && (0 <=? 1) && (zlen s + 1 <=? zlen s + 1)) with true by lia.
    rewrite skipn_zlen. reflexivity. }
  split; [exact F|]. split; [exact K|]. unfold sv_starts_with_char, sv_ends_with_char, sv_empty. rewrite F, K, zlen_cons, zlen_app.
  pose proof (zlen_nonneg s). replace (zlen [c]) with 1 by reflexivity.
  replace (1 + zlen s =? 0) with false by lia. replace (zlen s + 1 =? 0) with false by lia. split; reflexivity.
Qed.
Print Assumptions c35_front_back.

(** Copying out writes exactly the requested characters at the front of the
    destination. *)
Theorem c35_copy s out o n : 0 <= o <= zlen s -> 0 <= n -> Z.min n (zlen s - o) <= zlen out ->
  exists pre mid post tail, s = pre ++ mid ++ post /\ zlen pre = o /\ zlen mid = Z.min n (zlen s - o) /\
    out = firstn (List.length mid) out ++ tail /\ sv_copy s out n o = Ok (mid ++ tail, zlen mid).
Proof.
  intros Ho Hn Hr. destruct (c35_substr s o n) as [_ H]; [lia|lia|]. destruct H as (pre & mid & post & E & Lp & Lm & S); [lia|].
  exists pre, mid, post, (skipn (List.length mid) out). split; [assumption|]. split; [assumption|]. split; [assumption|].
  split; [symmetry; apply firstn_skipn|]. unfold sv_copy. unfold sv_substr in S.
  replace (zlen s <? o) with false in * by lia. rewrite S. cbn [bind]. unfold wr. rewrite Lm.
  replace (0 <=? 0) with true by reflexivity. replace (0 + _ <=? zlen out) with true by lia. cbn [andb firstn Z.to_nat app bind].
  f_equal. f_equal. f_equal. f_equal. unfold zlen in *. lia.
Qed.
Print Assumptions c35_copy.

Theorem c35_starts_ends s t : zlen s < 2 ^ 63 ->
  (exists q, sv_starts_with s t = Ok q /\ (q = true <-> exists post, s = t ++ post)) /\
  (exists q, sv_ends_with s t = Ok q /\ (q = true <-> exists pre, s = pre ++ t)).
Proof.
  intros Ls. split.
  - unfold sv_starts_with. destruct (Z.leb_spec (zlen t) (zlen s)) as [L|L].
    + destruct (compare_at_spec s t 0) as (c & -> & C); [zlia|]. cbn [bind]. eexists. split; [reflexivity|].
      rewrite Z.eqb_eq, C. split.
      * intros (pre & post & -> & E). destruct pre; [exists post; reflexivity|rewrite zlen_cons in E; zlia].
      * intros (post & ->). exists [], post. auto.
    + exists false. split; [reflexivity|]. split; [discriminate|]. intros (post & ->). rewrite zlen_app in L. zlia.
  - unfold sv_ends_with. destruct (Z.leb_spec (zlen t) (zlen s)) as [L|L].
    + destruct (split_zlen s (zlen s - zlen t)) as (pre & rest & -> & E); [zlia|]. rewrite zlen_app in *.
      unfold sv_compare_at. replace (zlen pre + zlen rest - zlen t) with (zlen pre) by lia.
      rewrite (sv_substr_ok _ pre rest []); [|rewrite app_nil_r; reflexivity|
        unfold npos, size_max; change (2 ^ 64) with (2 * 2 ^ 63); zlia|auto].
      cbn [bind]. eexists. split; [reflexivity|]. rewrite Z.eqb_eq. destruct (sv_compare_spec rest t) as (_ & -> & _). split.
      * intros ->. exists pre. reflexivity.
      * intros (pre' & E'). assert (zlen (pre ++ rest) = zlen (pre' ++ t)) as EL by congruence. rewrite !zlen_app in EL.
        apply app_split in E'; [apply E'|lia].
    + exists false. split; [reflexivity|]. split; [discriminate|]. intros (pre & ->). rewrite zlen_app in L. zlia.
Qed.
Print Assumptions c35_starts_ends.

(** The first occurrence at or after the offset, unless offset plus target
    length wraps around. *)
Theorem c35_find s t o : zlen s < 2 ^ 63 -> zlen t < 2 ^ 63 -> 0 <= o -> o + zlen t < 2 ^ 64 ->
  exists r, sv_find s t o = Ok r /\ first_from (occurs t s) o npos r.
Proof. apply sv_find_spec. Qed.
Print Assumptions c35_find.

(** When it wraps, nothing can be found, but the search may throw out of a
    noexcept function (std::terminate): exactly here. *)
Theorem c35_find_wraps s t o : zlen s < 2 ^ 63 -> zlen t < 2 ^ 63 -> o < 2 ^ 64 -> 2 ^ 64 <= o + zlen t ->
  (zlen s < o + zlen t - 2 ^ 64 -> sv_find s t o = Ok npos) /\
  (o + zlen t - 2 ^ 64 <= zlen s -> sv_find s t o = Throw out_of_range).
Proof.
  intros Ls Lt Ho B. rewrite (sv_find_wraps s t o Ls Lt Ho B). split; intros H.
  - replace (zlen s <? o + zlen t - 2 ^ 64) with true by lia. reflexivity.
  - replace (zlen s <? o + zlen t - 2 ^ 64) with false by lia. reflexivity.
Qed.
Print Assumptions c35_find_wraps.

Theorem c35_find_npos_refuted : sv_find (b "abc") (b "bc") npos = Throw out_of_range /\
  (forall j, npos <= j -> ~ occurs (b "bc") (b "abc") j).
Proof.
  split; [vm_compute; reflexivity|]. intros j Hj O. apply occurs_range in O. revert Hj O.
  unfold npos, size_max. change (zlen (b "abc")) with 3. change (zlen (b "bc")) with 2. lia.
Qed.
Print Assumptions c35_find_npos_refuted.

(** rfind, exactly: nothing is found when the offset is smaller than the target;
    an absent target makes it throw out of a noexcept function; and so does any
    offset past the end, including the default one. *)
Theorem c35_rfind s t o : zlen s < 2 ^ 63 -> 0 <= o < 2 ^ 64 ->
  (Z.min o (zlen s) < zlen t -> sv_rfind s t o = Ok npos) /\
  (zlen t <= zlen s -> zlen s < o -> sv_rfind s t o = Throw out_of_range) /\
  (zlen t <= o <= zlen s ->
     (exists r, sv_rfind s t o = Ok r /\ r <= o /\ occurs t s r /\ forall j, r < j <= o -> ~ occurs t s j) \/
     (sv_rfind s t o = Throw out_of_range /\ forall j, j <= o -> ~ occurs t s j)).
Proof.
  intros Ls Ho. unfold sv_rfind. split; [|split].
  - intros H. cbn [sv_rfind_loop]. replace (0 <=? _) with false by lia. reflexivity.
  - intros H1 H2. cbn [sv_rfind_loop]. replace (0 <=? _) with true by lia. unfold sv_compare_at, sv_substr.
    replace (zlen s <? o) with true by lia. reflexivity.
  - intros H. apply rfind_loop_spec; [assumption|lia|zlia|]. unfold zlen in *. lia.
Qed.
Print Assumptions c35_rfind.

(** The specification of rfind fails in each of these ways. *)
Theorem c35_rfind_refuted :
  (sv_rfind (b "ab") (b "ab") 0 = Ok npos /\ occurs (b "ab") (b "ab") 0) /\
  (sv_rfind (b "ab") (b "b") npos = Throw out_of_range /\ occurs (b "b") (b "ab") 1) /\
  sv_rfind (b "ab") (b "c") 2 = Throw out_of_range.
Proof.
  split; [split; [vm_compute; reflexivity|exists [], []; auto]|].
  split; [split; [vm_compute; reflexivity|exists (b "a"), []; auto]|vm_compute; reflexivity].
Qed.
Print Assumptions c35_rfind_refuted.

Theorem c35_find_first_of s t o : zlen t < 2 ^ 63 -> 0 <= o ->
  exists r, sv_find_first_of s t o = Ok r /\ first_from (member_at t s) o npos r.
Proof.
  intros Lt Ho. unfold sv_find_first_of. destruct (Z.leb_spec (zlen s) o) as [L|L].
  - exists npos. split; [reflexivity|]. right. split; [reflexivity|]. intros j Hj X. apply has_at_range in X. lia.
  - destruct (forward_spec (is_one_of t) (fun c => In c t) s o (fun c => one_of_spec t c Lt)) as (n & E & H); [lia|].
    cbv zeta in *. rewrite E. cbn [bind]. eexists. split; [reflexivity|].
    destruct H as [(-> & F)|(N & B & X & F)].
    + rewrite Z.eqb_refl. right. auto.
    + replace (n =? _) with false by lia. left. auto.
Qed.
Print Assumptions c35_find_first_of.

(** find_last_of counts its offset from the end. *)
Theorem c35_find_last_of s t o : zlen t < 2 ^ 63 -> 0 <= o ->
  exists r, sv_find_last_of s t o = Ok r /\ last_upto (member_at t s) (zlen s - 1 - o) npos r.
Proof.
  intros Lt Ho. unfold sv_find_last_of. destruct (Z.leb_spec (zlen s) o) as [L|L].
  - exists npos. split; [reflexivity|]. right. split; [reflexivity|]. intros j Hj X. apply has_at_range in X. lia.
  - destruct (forward_spec (is_one_of t) (fun c => In c t) (rev s) o (fun c => one_of_spec t c Lt)) as (n & E & H);
      [rewrite zlen_rev; lia|].
    cbv zeta in *. rewrite E. cbn [bind]. eexists. split; [reflexivity|].
    destruct H as [(-> & F)|(N & B & X & F)].
    + rewrite Z.eqb_refl. right. split; [reflexivity|]. intros j Hj X.
      apply (F (zlen s - 1 - j)); [lia|]. apply has_at_rev. replace (zlen s - 1 - (zlen s - 1 - j)) with j by lia. exact X.
    + replace (n =? _) with false by lia. left. apply has_at_rev in X. split; [lia|].
      replace (zlen s - (o + n) - 1) with (zlen s - 1 - (o + n)) by lia. split; [exact X|]. intros j Hj Y.
      apply (F (zlen s - 1 - j)); [lia|]. apply has_at_rev. replace (zlen s - 1 - (zlen s - 1 - j)) with j by lia. exact Y.
Qed.
Print Assumptions c35_find_last_of.

(** So with its default offset 0 it is the standard's function with the
    standard's default, and with any other offset it is not. *)
Theorem c35_find_last_of_refuted :
  sv_find_last_of (b "abca") (b "a") 3 = Ok 0 /\ last_upto (member_at (b "a") (b "abca")) 3 npos 3.
Proof.
  split; [vm_compute; reflexivity|]. left. split; [lia|]. split; [|intros; lia].
  exists (b "abc"), x61, []. split; [reflexivity|]. split; [reflexivity|]. left. reflexivity.
Qed.
Print Assumptions c35_find_last_of_refuted.

(** find_first_not_of returns the negated position: right only for position 0. *)
Theorem c35_find_first_not_of s t o : zlen t < 2 ^ 63 -> zlen s < 2 ^ 63 -> 0 <= o ->
  exists p, first_from (stranger_at t s) o npos p /\
    sv_find_first_not_of s t o = Ok (if p =? npos then npos else if p =? 0 then 0 else 2 ^ 64 - p).
Proof.
  intros Lt Ls Ho. unfold sv_find_first_not_of. destruct (Z.leb_spec (zlen s) o) as [L|L].
  - exists npos. split; [|rewrite Z.eqb_refl; reflexivity]. right. split; [reflexivity|]. intros j Hj X. apply has_at_range in X. lia.
  - destruct (forward_spec (is_none_of t) (fun c => ~ In c t) s o (fun c => none_of_spec t c Lt)) as (n & E & H); [lia|].
    cbv zeta in *. rewrite E. cbn [bind].
    destruct H as [(-> & F)|(N & B & X & F)].
    + exists npos. split; [right; auto|]. rewrite !Z.eqb_refl. reflexivity.
    + exists (o + n). split; [left; auto|]. replace (n =? _) with false by lia. apply has_at_range in X.
      replace (o + n =? npos) with false by (unfold npos, size_max; change (2 ^ 64) with (2 * 2 ^ 63); lia).
      f_equal. destruct (Z.eqb_spec (o + n) 0) as [->|NZ]; [reflexivity|]. unfold wrap, size_max.
      symmetry. apply Z.mod_unique_pos with (q := -1); [|lia]. change (2 ^ 64) with (2 * 2 ^ 63). lia.
Qed.
Print Assumptions c35_find_first_not_of.

Theorem c35_find_first_not_of_refuted :
  sv_find_first_not_of (b "aab") (b "a") 0 = Ok (2 ^ 64 - 2) /\
  first_from (stranger_at (b "a") (b "aab")) 0 npos 2.
Proof.
  split; [vm_compute; reflexivity|]. left. split; [lia|]. split.
  - exists (b "aa"), x62, []. split; [reflexivity|]. split; [reflexivity|]. intros [X|[]]. discriminate.
  - intros j Hj (pre & c & post & E & L & N). assert (j = 0 \/ j = 1) as [-> | ->] by lia.
    + destruct pre; [|rewrite zlen_cons in L; zlia]. injection E as <- _. apply N. left. reflexivity.
    + destruct pre as [|d [|d' pre]]; [discriminate L| |rewrite !zlen_cons in L; zlia]. injection E as _ <- _. apply N. left. reflexivity.
Qed.
Print Assumptions c35_find_first_not_of_refuted.

(** find_last_not_of returns the negated distance from the end. *)
Theorem c35_find_last_not_of s t o : zlen t < 2 ^ 63 -> zlen s < 2 ^ 63 -> 0 <= o ->
  exists p, last_upto (stranger_at t s) (zlen s - 1 - o) npos p /\
    sv_find_last_not_of s t o = Ok (if p =? npos then npos else if p =? zlen s - 1 then 0 else 2 ^ 64 - (zlen s - 1 - p)).
Proof.
  intros Lt Ls Ho. unfold sv_find_last_not_of. destruct (Z.leb_spec (zlen s) o) as [L|L].
  - exists npos. split; [|rewrite Z.eqb_refl; reflexivity]. right. split; [reflexivity|]. intros j Hj X. apply has_at_range in X. lia.
  - destruct (forward_spec (is_none_of t) (fun c => ~ In c t) (rev s) o (fun c => none_of_spec t c Lt)) as (n & E & H);
      [rewrite zlen_rev; lia|].
    cbv zeta in *. rewrite E. cbn [bind].
    destruct H as [(-> & F)|(N & B & X & F)].
    + exists npos. rewrite !Z.eqb_refl. split; [|reflexivity]. right. split; [reflexivity|]. intros j Hj X.
      apply (F (zlen s - 1 - j)); [lia|]. apply has_at_rev. replace (zlen s - 1 - (zlen s - 1 - j)) with j by lia. exact X.
    + exists (zlen s - 1 - (o + n)). apply has_at_rev in X. split.
      * left. split; [lia|]. split; [exact X|]. intros j Hj Y.
        apply (F (zlen s - 1 - j)); [lia|]. apply has_at_rev. replace (zlen s - 1 - (zlen s - 1 - j)) with j by lia. exact Y.
      * replace (n =? _) with false by lia. apply has_at_range in X.
        replace (_ =? npos) with false by (unfold npos, size_max; change (2 ^ 64) with (2 * 2 ^ 63); lia).
        f_equal. destruct (Z.eqb_spec (zlen s - 1 - (o + n)) (zlen s - 1)) as [E0|NZ].
        -- replace (o + n) with 0 by lia. reflexivity.
        -- unfold wrap, size_max. symmetry. apply Z.mod_unique_pos with (q := -1); [|lia].
           change (2 ^ 64) with (2 * 2 ^ 63). lia.
Qed.
Print Assumptions c35_find_last_not_of.

Theorem c35_find_last_not_of_refuted :
  sv_find_last_not_of (b "ba") (b "a") 0 = Ok (2 ^ 64 - 1) /\ sv_find_last_not_of (b "ab") (b "a") 0 = Ok 0 /\
  stranger_at (b "a") (b "ba") 0 /\ stranger_at (b "a") (b "ab") 1.
Proof.
  split; [vm_compute; reflexivity|]. split; [vm_compute; reflexivity|]. split.
  - exists [], x62, (b "a"). split; [reflexivity|]. split; [reflexivity|]. intros [X|[]]. discriminate.
  - exists (b "a"), x62, []. split; [reflexivity|]. split; [reflexivity|]. intros [X|[]]. discriminate.
Qed.
Print Assumptions c35_find_last_not_of_refuted.

(** Ordinary cases. *)
Example c35_cases :
  sv_find (b "banana") (b "an") 2 = Ok 3 /\ sv_find (b "banana") (b "x") 0 = Ok npos /\ sv_find (b "abc") [] 3 = Ok 3 /\
  sv_rfind (b "banana") (b "an") 6 = Ok 3 /\ sv_find_first_of (b "banana") (b "xn") 0 = Ok 2 /\
  sv_find_last_of (b "banana") (b "b") 0 = Ok 0 /\ sv_substr (b "banana") 2 3 = Ok (b "nan") /\
  sv_compare (b "a") [x80] = -1.
Proof. vm_compute. repeat split. Qed.
