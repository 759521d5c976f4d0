(** Writing a parsed document into a buffer: how much room it takes, and that it
    writes what finalizing the parsed value writes. *)

From Coq Require Import String ZArith List Bool Lia Sorted Permutation.
From Coq Require Import ZifyBool ZifyNat ZifyN.
From Verif Require Import Base BaseFacts Keys KeysFacts Dec Wire Read Buf HeapOps Spec Enc EncSize ReadFacts Lookup BufFacts Canon HeapFacts
  SpecJson Json JsonFacts.
Import ListNotations.
Open Scope string_scope.
Open Scope list_scope.
Open Scope Z_scope.

(** ** Room *)
Definition sumf {A} (f : A -> Z) (l : list A) : Z := fold_right (fun x a => f x + a) 0 l.
Definition pad8 (n : Z) : Z := align_up n 8.

Fixpoint jsize (d : jdoc) : Z :=
  match d with
  | JObj ms => 8 + sumf (fun kv => 8 + pad8 (zlen (enc_str (fst kv))) + pad8 (jsize (snd kv))) ms
  | JArr ds => 8 + sumf (fun x => 8 + pad8 (jsize x)) ds
  | JStr s => zlen (enc_str s)
  | JInt z => if identify_integer z =? R_short_integer then 2 else if identify_integer z =? R_integer then 4 else 8
  | JUint z => if fits_single (dec_of_uint64 z) then 4 else 8
  | JDec d => if fits_single d then 4 else 8
  | JBool _ => 1
  | JNull => 0
  end.

Lemma pad8_bounds n : n <= pad8 n < n + 8 /\ pad8 n mod 8 = 0.
Proof. unfold pad8. pose proof (align_up_ge n 8). pose proof (align_up_lt n 8). pose proof (align_up_mod n 8). lia. Qed.

Lemma sumf_nonneg {A} (f : A -> Z) l : Forall (fun x => 0 <= f x) l -> 0 <= sumf f l.
Proof. induction 1; cbn [sumf fold_right]; [lia|]. fold (sumf f l). lia. Qed.
Lemma sumf_mod {A} (f : A -> Z) l : Forall (fun x => f x mod 8 = 0) l -> sumf f l mod 8 = 0.
Proof.
  induction 1 as [|x l H F IH]; [reflexivity|]. cbn [sumf fold_right]. fold (sumf f l).
  rewrite Z.add_mod, H, IH by lia. reflexivity.
Qed.
Lemma sumf_perm {A} (f : A -> Z) l r : Permutation l r -> sumf f l = sumf f r.
Proof. induction 1; cbn [sumf fold_right]; fold (sumf f) in *; unfold sumf in *; lia. Qed.
Lemma sumf_cons {A} (f : A -> Z) x l : sumf f (x :: l) = f x + sumf f l. Proof. reflexivity. Qed.

Lemma pad8_sum a b : (8 + pad8 a + pad8 b) mod 8 = 0.
Proof.
  pose proof (pad8_bounds a) as [_ A]. pose proof (pad8_bounds b) as [_ B].
  rewrite (Z.add_mod (8 + pad8 a)), B, (Z.add_mod 8), A by lia. reflexivity.
Qed.
Lemma pad8_one a : (8 + pad8 a) mod 8 = 0.
Proof. pose proof (pad8_bounds a) as [_ A]. rewrite Z.add_mod, A by lia. reflexivity. Qed.

Lemma jsize_nonneg d : 0 <= jsize d.
Proof.
  induction d using jdoc_ind'; cbn [jsize].
  - enough (0 <= sumf (fun kv : str * jdoc => 8 + pad8 (zlen (enc_str (fst kv))) + pad8 (jsize (snd kv))) ms) by lia.
    apply sumf_nonneg. rewrite Forall_forall in *. intros kv J. specialize (H kv J). cbn beta in *.
    pose proof (pad8_bounds (zlen (enc_str (fst kv)))). pose proof (pad8_bounds (jsize (snd kv))). pose proof (zlen_nonneg (enc_str (fst kv))). lia.
  - enough (0 <= sumf (fun x : jdoc => 8 + pad8 (jsize x)) ds) by lia.
    apply sumf_nonneg. rewrite Forall_forall in *. intros x J. specialize (H x J). cbn beta in *. pose proof (pad8_bounds (jsize x)). lia.
  - destruct d; try (exfalso; apply H; exact I); cbn [jsize]; try apply zlen_nonneg;
      repeat match goal with |- context [if ?b then _ else _] => destruct b end; lia.
Qed.

(** ** Memory operations inside the region *)
Lemma wr_in m o bs : 0 <= o -> o + zlen bs <= zlen m -> exists m', wr m o bs = Ok m' /\ zlen m' = zlen m.
Proof.
  intros A B. destruct (wr m o bs) as [m'| | | |] eqn:E; unfold wr in E; rewrite (proj2 (Z.leb_le 0 o) A), (proj2 (Z.leb_le _ _) B) in E;
    cbn [andb] in E; try discriminate. exists m'. split; [reflexivity|]. apply (wr_len m o bs). unfold wr.
  rewrite (proj2 (Z.leb_le 0 o) A), (proj2 (Z.leb_le _ _) B). exact E.
Qed.
Lemma wr_le_in m o n z : 0 <= o -> o + Z.of_nat n <= zlen m -> exists m', wr_le m o n z = Ok m' /\ zlen m' = zlen m.
Proof. intros A B. apply wr_in; [assumption|]. rewrite zlen_le_enc. assumption. Qed.

Lemma wr_split m o bs m' : wr m o bs = Ok m' -> exists pre post, m' = pre ++ bs ++ post /\ zlen pre = o.
Proof.
  unfold wr. destruct ((0 <=? o) && (o + zlen bs <=? zlen m)) eqn:C; [|discriminate]. intros E. apply Ok_inj in E. subst m'.
  eexists _, _. split; [reflexivity|]. unfold zlen in *. rewrite firstn_length. lia.
Qed.
(** A size just written is read back reduced. *)
Lemma wr_rd_le m o n z m' : wr_le m o n z = Ok m' -> rd_le m' o n = Ok (z mod 2 ^ (8 * Z.of_nat n)).
Proof.
  intros E. apply wr_split in E. destruct E as (pre & post & -> & <-). apply rd_le_app. reflexivity.
Qed.
Lemma wr_keeps m o bs m' p n : wr m o bs = Ok m' -> p + n <= o -> rd m' p n = rd m p n.
Proof.
  intros W L. pose proof (wr_len _ _ _ _ W) as Z. unfold wr in W. destruct ((0 <=? o) && (o + zlen bs <=? zlen m)) eqn:C; [|discriminate].
  apply Ok_inj in W. unfold rd. rewrite Z. destruct ((0 <=? p) && (0 <=? n) && (p + n <=? zlen m)) eqn:D; [|reflexivity]. f_equal.
  rewrite <- W. set (a := firstn (Z.to_nat o) m).
  assert (LA : zlen a = o) by (unfold a, zlen in *; rewrite firstn_length; pose proof (zlen_nonneg bs); unfold zlen in *; lia).
  assert (G : forall r, firstn (Z.to_nat n) (skipn (Z.to_nat p) (a ++ r)) = firstn (Z.to_nat n) (skipn (Z.to_nat p) a)).
  { intros r. unfold zlen in LA. rewrite skipn_app. replace (Z.to_nat p - length a)%nat with 0%nat by lia. cbn [skipn].
    rewrite firstn_app, skipn_length. replace (Z.to_nat n - (length a - Z.to_nat p))%nat with 0%nat by lia. cbn [firstn]. apply app_nil_r. }
  rewrite G. pose proof (firstn_skipn (Z.to_nat o) m) as E. fold a in E. rewrite <- (G (skipn (Z.to_nat o) m)), E. reflexivity.
Qed.
Lemma wr_keeps_le m o bs m' p n : wr m o bs = Ok m' -> p + Z.of_nat n <= o -> rd_le m' p n = rd_le m p n.
Proof. intros W L. unfold rd_le. rewrite (wr_keeps _ _ _ _ _ _ W L). reflexivity. Qed.

Lemma layout_str_in m o s : 0 <= o -> o + zlen (enc_str s) <= zlen m ->
  exists m' n, layout_str m o s = Ok (m', n) /\ zlen m' = zlen m /\ 0 <= n <= zlen (enc_str s).
Proof.
  intros A B. rewrite zlen_enc_str in *. pose proof (zlen_nonneg s) as N. unfold layout_str. rewrite str_w_identify.
  assert (W : forall w, Z.of_nat w + zlen s + 1 + o <= zlen m -> exists m', wr_string m w o s = Ok m' /\ zlen m' = zlen m /\
            rd_le m' o w = Ok (zlen s mod 2 ^ (8 * Z.of_nat w))).
  { intros w H. unfold wr_string. destruct (wr_le_in m o w (zlen s)) as (m1 & E1 & L1); [lia..|]. rewrite E1. cbn [bind].
    destruct (wr_in m1 (o + Z.of_nat w) s) as (m2 & E2 & L2); [lia..|]. rewrite E2. cbn [bind].
    destruct (wr_in m2 (o + Z.of_nat w + zlen s) [x00]) as (m3 & E3 & L3); [rewrite ?zlen_cons, ?zlen_nil; lia..|]. rewrite E3.
    exists m3. split; [reflexivity|]. split; [lia|].
    rewrite (wr_keeps_le _ _ _ _ _ _ E3), (wr_keeps_le _ _ _ _ _ _ E2) by lia. apply (wr_rd_le m). assumption. }
  unfold str_w in *. destruct (65535 <? zlen s) eqn:E.
  - destruct (W 4%nat) as (m' & -> & L & R); [lia|]. cbn [bind].
    assert (I : identify_string (zlen s) = R_big_string) by (unfold identify_string; rewrite E; reflexivity). rewrite I.
    change (find_sizeof m' R_big_string o) with (len <- rd_le m' o 4 ;; Ok (4 + len + 1)). rewrite R. cbn [bind].
    eexists _, _. split; [reflexivity|]. split; [assumption|]. pose proof (Z.mod_pos_bound (zlen s) (2 ^ (8 * Z.of_nat 4)) ltac:(lia)).
    pose proof (Z.mod_le (zlen s) (2 ^ (8 * Z.of_nat 4)) ltac:(lia) ltac:(lia)). lia.
  - destruct (W 2%nat) as (m' & -> & L & R); [lia|]. cbn [bind].
    assert (I : find_sizeof m' (identify_string (zlen s)) o = (len <- rd_le m' o 2 ;; Ok (2 + len + 1))).
    { unfold identify_string. rewrite E. destruct (sso_bytes <? zlen s); reflexivity. }
    rewrite I, R. cbn [bind].
    eexists _, _. split; [reflexivity|]. split; [assumption|]. pose proof (Z.mod_pos_bound (zlen s) (2 ^ (8 * Z.of_nat 2)) ltac:(lia)).
    pose proof (Z.mod_le (zlen s) (2 ^ (8 * Z.of_nat 2)) ltac:(lia) ltac:(lia)). lia.
Qed.

(** Rounding up stays below a multiple of 8. *)
Lemma align_below x a b : pow2_align a -> x <= b -> b mod 8 = 0 -> x <= align_up x a <= b.
Proof.
  intros P L M. split; [apply align_up_ge; apply pow2_align_pos; assumption|].
  rewrite <- (align_up_id b a) by (try apply pow2_align_pos; try apply mod8_mod; assumption).
  apply align_up_mono; [apply pow2_align_pos|]; assumption.
Qed.

Section Room.
  Variable sorter : forall A, list (str * A) -> list (str * A).
  Hypothesis sorter_perm : forall A (l : list (str * A)), Permutation l (sorter A l).

  Definition act (d : jdoc) : action := (json_identify d, json_lower sorter d).
  Lemma lower_obj ms m o : json_lower sorter (JObj ms) m o =
    (m <- wr_le m (o + 4) 4 (zlen ms) ;;
     '(m, offset) <- lower_members o (sorter _ (map (fun kv => (fst kv, act (snd kv))) ms)) m (8 + 8 * zlen ms) 0 ;;
     let offset := align_up offset 8 in
     m <- wr_le m o 4 offset ;;
     sz <- rd_le m o 4 ;;
     Ok (m, sz)).
  Proof. reflexivity. Qed.
  Lemma lower_arr ds m o : json_lower sorter (JArr ds) m o =
    (m <- wr_le m (o + 4) 4 (zlen ds) ;;
     '(m, offset) <- lower_elements o (map act ds) m (8 + 8 * zlen ds) 0 ;;
     m <- wr_le m o 4 offset ;;
     sz <- rd_le m o 4 ;;
     Ok (m, sz)).
  Proof. reflexivity. Qed.

  (** The members of an object in the order they are written. *)
  Lemma sorted_members {B} (f : jdoc -> B) ms : exists ms', Permutation ms ms' /\
    sorter _ (map (fun kv => (fst kv, f (snd kv))) ms) = map (fun kv => (fst kv, f (snd kv))) ms'.
  Proof.
    destruct (Permutation_map_inv (fun kv : str * jdoc => (fst kv, f (snd kv))) ms (Permutation_sym (sorter_perm _ _))) as (ms' & E & P).
    exists ms'. split; assumption.
  Qed.

  Definition roomy (d : jdoc) : Prop := forall m o, 0 <= o -> (is_container d -> o mod 8 = 0) -> o + jsize d <= zlen m ->
    exists m' n, json_lower sorter d m o = Ok (m', n) /\ zlen m' = zlen m /\ 0 <= n <= jsize d.

  Lemma container_align d x : is_container d -> align_up x (alignment_of (json_identify d)) mod 8 = 0.
  Proof. intros C. destruct d; destruct C; apply (align_up_mod x 8); lia. Qed.

  Definition msize (kv : str * jdoc) : Z := 8 + pad8 (zlen (enc_str (fst kv))) + pad8 (jsize (snd kv)).
  Lemma members_room o ms : Forall (fun kv => roomy (snd kv)) ms -> 0 <= o -> o mod 8 = 0 ->
    forall m offset i b, 0 <= i -> 8 + 8 * (i + zlen ms) <= b -> 0 <= offset <= b -> b mod 8 = 0 ->
      o + b + sumf (fun kv => msize kv - 8) ms <= zlen m ->
      exists m' off', lower_members o (map (fun kv => (fst kv, act (snd kv))) ms) m offset i = Ok (m', off') /\
        zlen m' = zlen m /\ 0 <= off' <= b + sumf (fun kv => msize kv - 8) ms.
  Proof.
    induction 1 as [|[k d] r H F IH]; intros O A m offset i b I B X M L.
    - cbn. eexists _, _. split; [reflexivity|]. cbn in *. lia.
    - cbn [map fst snd lower_members]. unfold act at 1. rewrite sumf_cons in *. unfold msize in L at 1. cbn [fst snd] in L. rewrite zlen_cons in B.
      pose proof (zlen_nonneg r) as NR. pose proof (pad8_bounds (zlen (enc_str k))) as [P1 P2]. pose proof (pad8_bounds (jsize d)) as [P3 P4].
      pose proof (jsize_nonneg d) as ND. pose proof (zlen_nonneg (enc_str k)) as NK.
      assert (NS : 0 <= sumf (fun kv => msize kv - 8) r).
      { apply sumf_nonneg. apply Forall_forall. intros [k' d'] _. unfold msize. cbn [fst snd]. pose proof (pad8_bounds (zlen (enc_str k'))).
        pose proof (pad8_bounds (jsize d')). pose proof (jsize_nonneg d'). pose proof (zlen_nonneg (enc_str k')). lia. }
      assert (OB : (o + b) mod 8 = 0) by (rewrite Z.add_mod, A, M by lia; reflexivity).
      change (alignment_of R_string) with 2.
      destruct (align_below (o + offset) 2 (o + b)) as [G1 G2]; [right; left; reflexivity|lia|assumption|].
      set (p1 := align_up (o + offset) 2) in *.
      destruct (wr_in m (o + 8 + 8 * i) (obj_entry (json_identify d) (p1 - o) k)) as (m1 & -> & L1); [lia|rewrite zlen_obj_entry; lia|]. cbn [bind].
      destruct (layout_str_in m1 p1 k) as (m2 & n1 & -> & L2 & N1); [lia..|]. cbn [bind].
      destruct (align_below (o + (p1 - o + n1)) (alignment_of (json_identify d)) (o + b + pad8 (zlen (enc_str k)))) as [G3 G4];
        [apply alignment_pow2|lia|rewrite Z.add_mod, OB, P2 by lia; reflexivity|].
      set (p2 := align_up (o + (p1 - o + n1)) (alignment_of (json_identify d))) in *.
      destruct (H m2 p2) as (m3 & n2 & E3 & L3 & N2); [lia|apply container_align|cbn [snd]; lia|]. cbn [snd] in E3, N2. rewrite E3. cbn [bind].
      destruct (IH O A m3 (p2 - o + n2) (i + 1) (b + pad8 (zlen (enc_str k)) + pad8 (jsize d))) as (m4 & off & E4 & L4 & N4).
      + lia.
      + lia.
      + lia.
      + rewrite Z.add_mod, P4, (Z.add_mod b), M, P2 by lia. reflexivity.
      + lia.
      + rewrite E4. eexists _, _. split; [reflexivity|]. split; [lia|]. unfold msize at 1. cbn [fst snd]. lia.
  Qed.
  Definition asize (d : jdoc) : Z := 8 + pad8 (jsize d).
  Lemma elements_room o ds : Forall roomy ds -> 0 <= o -> o mod 8 = 0 ->
    forall m offset i b, 0 <= i -> 8 + 8 * (i + zlen ds) <= b -> 0 <= offset <= b -> b mod 8 = 0 ->
      o + b + sumf (fun x => asize x - 8) ds <= zlen m ->
      exists m' off', lower_elements o (map act ds) m offset i = Ok (m', off') /\
        zlen m' = zlen m /\ 0 <= off' <= b + sumf (fun x => asize x - 8) ds.
  Proof.
    induction 1 as [|d r H F IH]; intros O A m offset i b I B X M L.
    - cbn. eexists _, _. split; [reflexivity|]. cbn in *. lia.
    - cbn [map lower_elements]. unfold act at 1. rewrite sumf_cons in *. unfold asize in L at 1. rewrite zlen_cons in B.
      pose proof (zlen_nonneg r) as NR. pose proof (pad8_bounds (jsize d)) as [P3 P4]. pose proof (jsize_nonneg d) as ND.
      assert (NS : 0 <= sumf (fun x => asize x - 8) r).
      { apply sumf_nonneg. apply Forall_forall. intros d' _. unfold asize. pose proof (pad8_bounds (jsize d')). pose proof (jsize_nonneg d'). lia. }
      assert (OB : (o + b) mod 8 = 0) by (rewrite Z.add_mod, A, M by lia; reflexivity).
      destruct (align_below (o + offset) (alignment_of (json_identify d)) (o + b)) as [G1 G2]; [apply alignment_pow2|lia|assumption|].
      set (p1 := align_up (o + offset) (alignment_of (json_identify d))) in *.
      destruct (wr_in m (o + 8 + 8 * i) (arr_entry (json_identify d) (p1 - o))) as (m1 & -> & L1); [lia|rewrite zlen_arr_entry; lia|]. cbn [bind].
      destruct (H m1 p1) as (m3 & n2 & E3 & L3 & N2); [lia|apply container_align|lia|]. rewrite E3. cbn [bind].
      destruct (IH O A m3 (p1 - o + n2) (i + 1) (b + pad8 (jsize d))) as (m4 & off & E4 & L4 & N4).
      + lia.
      + lia.
      + lia.
      + rewrite Z.add_mod, P4, M by lia. reflexivity.
      + lia.
      + rewrite E4. eexists _, _. split; [reflexivity|]. split; [lia|]. unfold asize at 1. lia.
  Qed.

  Lemma sumf_minus {A} (f : A -> Z) l : sumf f l = 8 * zlen l + sumf (fun x => f x - 8) l.
  Proof. induction l as [|x l IH]; [reflexivity|]. rewrite !sumf_cons, IH, zlen_cons. lia. Qed.

  Lemma size_mod z : 0 <= z -> 0 <= z mod 2 ^ (8 * Z.of_nat 4) <= z.
  Proof. intros H. pose proof (Z.mod_pos_bound z (2 ^ (8 * Z.of_nat 4)) ltac:(lia)). pose proof (Z.mod_le z (2 ^ (8 * Z.of_nat 4)) ltac:(lia) ltac:(lia)). lia. Qed.

  Lemma scalar_room m o n z t : 0 <= o -> o + Z.of_nat n <= zlen m -> find_sizeof m t o = Ok (Z.of_nat n) ->
    (forall m', find_sizeof m' t o = Ok (Z.of_nat n)) ->
    exists m' k, (m' <- wr_le m o n z ;; sz <- find_sizeof m' t o ;; Ok (m', sz)) = Ok (m', k) /\ zlen m' = zlen m /\ 0 <= k <= Z.of_nat n.
  Proof.
    intros O L _ F. destruct (wr_le_in m o n z O L) as (m' & -> & L'). cbn [bind]. rewrite F. cbn [bind].
    eexists _, _. split; [reflexivity|]. lia.
  Qed.

  Lemma decimal_room m o d : 0 <= o -> o + (if fits_single d then 4 else 8) <= zlen m ->
    exists m' n, lower_decimal d m o = Ok (m', n) /\ zlen m' = zlen m /\ 0 <= n <= (if fits_single d then 4 else 8).
  Proof.
    intros O L. unfold lower_decimal, identify_decimal. destruct (fits_single d).
    - apply (scalar_room m o 4); [assumption|lia|reflexivity|reflexivity].
    - apply (scalar_room m o 8); [assumption|lia|reflexivity|reflexivity].
  Qed.

  Theorem lower_room d : roomy d.
  Proof.
    induction d using jdoc_ind'; intros m o O A L.
    - specialize (A I). rewrite lower_obj. change (jsize (JObj ms)) with (8 + sumf msize ms) in *.
      rewrite sumf_minus in *.
      assert (NS : 0 <= sumf (fun kv => msize kv - 8) ms).
      { apply sumf_nonneg. apply Forall_forall. intros [k' d'] _. unfold msize. cbn [fst snd]. pose proof (pad8_bounds (zlen (enc_str k'))).
        pose proof (pad8_bounds (jsize d')). pose proof (jsize_nonneg d'). pose proof (zlen_nonneg (enc_str k')). lia. }
      pose proof (zlen_nonneg ms) as NM.
      destruct (wr_le_in m (o + 4) 4 (zlen ms)) as (m1 & -> & L1); [lia..|]. cbn [bind].
      destruct (sorted_members act ms) as (ms' & P & E). rewrite E.
      assert (ZL : zlen ms' = zlen ms) by (unfold zlen; rewrite (Permutation_length P); reflexivity).
      assert (SU : sumf (fun kv => msize kv - 8) ms' = sumf (fun kv => msize kv - 8) ms) by (symmetry; apply sumf_perm; assumption).
      assert (F' : Forall (fun kv => roomy (snd kv)) ms') by (eapply Permutation_Forall; eassumption).
      assert (M8 : (8 + 8 * zlen ms) mod 8 = 0) by (rewrite <- (Z.mod_unique _ 8 (1 + zlen ms) 0); lia).
      destruct (members_room o ms' F' O A m1 (8 + 8 * zlen ms) 0 (8 + 8 * zlen ms)) as (m2 & off & E2 & L2 & N2); [lia..|].
      rewrite E2. cbn [bind]. rewrite SU in *.
      destruct (align_below off 8 (8 + 8 * zlen ms + sumf (fun kv => msize kv - 8) ms)) as [G1 G2];
        [right; right; right; reflexivity|lia| |].
      { rewrite Z.add_mod, M8 by lia. rewrite (sumf_mod (fun kv => msize kv - 8)); [reflexivity|].
        apply Forall_forall. intros kv _. unfold msize. pose proof (pad8_bounds (zlen (enc_str (fst kv)))) as [_ P1].
        pose proof (pad8_bounds (jsize (snd kv))) as [_ P2]. replace (8 + _ + _ - 8) with (pad8 (zlen (enc_str (fst kv))) + pad8 (jsize (snd kv))) by lia.
        rewrite Z.add_mod, P1, P2 by lia. reflexivity. }
      destruct (wr_le_in m2 o 4 (align_up off 8)) as (m3 & E3 & L3); [lia..|]. rewrite E3. cbn [bind].
      rewrite (wr_rd_le _ _ _ _ _ E3). cbn [bind]. eexists _, _. split; [reflexivity|]. split; [lia|].
      pose proof (size_mod (align_up off 8)). lia.
    - specialize (A I). rewrite lower_arr. change (jsize (JArr ds)) with (8 + sumf asize ds) in *.
      rewrite sumf_minus in *.
      assert (NS : 0 <= sumf (fun x => asize x - 8) ds).
      { apply sumf_nonneg. apply Forall_forall. intros d' _. unfold asize. pose proof (pad8_bounds (jsize d')). pose proof (jsize_nonneg d'). lia. }
      pose proof (zlen_nonneg ds) as NM.
      destruct (wr_le_in m (o + 4) 4 (zlen ds)) as (m1 & -> & L1); [lia..|]. cbn [bind].
      assert (M8 : (8 + 8 * zlen ds) mod 8 = 0) by (rewrite <- (Z.mod_unique _ 8 (1 + zlen ds) 0); lia).
      destruct (elements_room o ds H O A m1 (8 + 8 * zlen ds) 0 (8 + 8 * zlen ds)) as (m2 & off & E2 & L2 & N2); [lia..|].
      rewrite E2. cbn [bind].
      destruct (wr_le_in m2 o 4 off) as (m3 & E3 & L3); [lia..|]. rewrite E3. cbn [bind].
      rewrite (wr_rd_le _ _ _ _ _ E3). cbn [bind]. eexists _, _. split; [reflexivity|]. split; [lia|].
      pose proof (size_mod off). lia.
    - destruct d; try (exfalso; apply H; exact I); cbn [json_lower jsize] in *.
      + apply layout_str_in; assumption.
      + cbn zeta. unfold identify_integer in *. destruct ((2147483647 <? z) || (z <? -2147483648)); [|destruct ((32767 <? z) || (z <? -32768))].
        * apply (scalar_room m o 8); [assumption|exact L|reflexivity|reflexivity].
        * apply (scalar_room m o 4); [assumption|exact L|reflexivity|reflexivity].
        * apply (scalar_room m o 2); [assumption|exact L|reflexivity|reflexivity].
      + apply decimal_room; assumption.
      + apply decimal_room; assumption.
      + apply (scalar_room m o 1); [assumption|lia|reflexivity|reflexivity].
      + eexists _, _. split; [reflexivity|]. lia.
  Qed.
End Room.

(** ** How much a text can ask for *)
Scheme doc_text_ind3 := Induction for doc_text Sort Prop
  with members_text_ind3 := Induction for members_text Sort Prop
  with elements_text_ind3 := Induction for elements_text Sort Prop.
Combined Scheme text_ind from doc_text_ind3, members_text_ind3, elements_text_ind3.

Lemma zlen_utf8 z : zlen (utf8 z) <= 4.
Proof. unfold utf8. repeat match goal with |- context [if ?b then _ else _] => destruct b end; cbn; lia. Qed.
Lemma hex4_len t z : hex4 t z -> zlen t = 4.
Proof. intros (a & b & c & d & _ & _ & _ & _ & -> & _). reflexivity. Qed.
Lemma chars_len t s : chars t s -> zlen s <= zlen t.
Proof.
  induction 1; rewrite ?zlen_app, ?zlen_cons; try lia.
  - pose proof (zlen_utf8 z). rewrite (hex4_len _ _ H). change (zlen (lit "\u")) with 2. lia.
  - match goal with |- zlen (utf8 ?x) + _ <= _ => pose proof (zlen_utf8 x) end.
    rewrite (hex4_len _ _ H), (hex4_len _ _ H0). change (zlen (lit "\u")) with 2. lia.
Qed.
Lemma string_len t s : string_text t s -> 2 + zlen s <= zlen t.
Proof. intros (c & -> & H). apply chars_len in H. rewrite zlen_cons, zlen_app, zlen_cons, zlen_nil. lia. Qed.
Lemma str_room s : pad8 (zlen (enc_str s)) <= 8 * (2 + zlen s).
Proof.
  pose proof (pad8_bounds (zlen (enc_str s))) as [P M]. rewrite zlen_enc_str in *. pose proof (zlen_nonneg s). unfold str_w in *.
  destruct (65535 <? zlen s); lia.
Qed.
Lemma int_text_len t z : int_text t z -> 1 <= zlen t.
Proof.
  intros H. destruct H as [t [[N _] _]|t _]; [|rewrite zlen_cons; pose proof (zlen_nonneg t); lia].
  destruct t as [|c t]; [congruence|]. rewrite zlen_cons. pose proof (zlen_nonneg t). lia.
Qed.
Lemma number_len t d : number_text t d -> 1 <= zlen t /\ pad8 (jsize d) <= 8.
Proof.
  assert (S : forall a b c : Z, 0 < a <= 8 -> 0 < b <= 8 -> 0 < c <= 8 -> forall p q : bool, pad8 (if p then a else if q then b else c) <= 8).
  { intros a b c A B C p q. assert (G : forall x, 0 < x <= 8 -> pad8 x <= 8) by (intros x X; pose proof (pad8_bounds x) as [? ?];
      pose proof (Z.mod_divide (pad8 x) 8 ltac:(lia)) as [D _]; destruct D as [k K]; [assumption|lia]).
    destruct p; [auto|destruct q; auto]. }
  intros H; destruct H; (split; [try (eapply int_text_len; eassumption)|]); cbn [jsize].
  - apply S; lia.
  - apply (S 4 8 8 ltac:(lia) ltac:(lia) ltac:(lia) _ true).
  - apply (S 4 8 8 ltac:(lia) ltac:(lia) ltac:(lia) _ true).
  - rewrite !zlen_app. pose proof (zlen_nonneg f). pose proof (zlen_nonneg e). apply int_text_len in H. lia.
  - apply (S 4 8 8 ltac:(lia) ltac:(lia) ltac:(lia) _ true).
  - cbn [In] in H. destruct H as [<-|[<-|[<-|[<-|[<-|[]]]]]]; cbn; lia.
  - apply (S 4 8 8 ltac:(lia) ltac:(lia) ltac:(lia) _ true).
Qed.

Lemma jsize_obj ms : jsize (JObj ms) = 8 + sumf msize ms. Proof. reflexivity. Qed.
Lemma jsize_arr ds : jsize (JArr ds) = 8 + sumf asize ds. Proof. reflexivity. Qed.
Lemma aggregate_pad d : is_container d -> pad8 (jsize d) = jsize d.
Proof.
  intros C. unfold pad8. apply align_up_id; [lia|]. destruct d; destruct C.
  - rewrite jsize_obj, Z.add_mod by lia. rewrite (sumf_mod msize); [reflexivity|].
    apply Forall_forall. intros kv _. apply pad8_sum.
  - rewrite jsize_arr, Z.add_mod by lia. rewrite (sumf_mod asize); [reflexivity|].
    apply Forall_forall. intros x _. apply pad8_one.
Qed.

Lemma text_room :
  (forall t d, doc_text t d -> pad8 (jsize d) <= 8 * zlen t) /\
  (forall t ms, members_text t ms -> sumf msize ms <= 8 * zlen t + 8) /\
  (forall t ds, elements_text t ds -> sumf asize ds <= 8 * zlen t + 8).
Proof.
  apply text_ind; intros.
  - rewrite aggregate_pad by exact I. rewrite jsize_obj, zlen_cons, zlen_app, zlen_cons, zlen_nil. lia.
  - rewrite aggregate_pad by exact I. rewrite jsize_arr, zlen_cons, zlen_app, zlen_cons, zlen_nil. lia.
  - cbn [jsize]. pose proof (str_room s). apply string_len in s0. lia.
  - destruct (number_len _ _ n). lia.
  - cbn. lia.
  - cbn. lia.
  - cbn. lia.
  - change (sumf msize []) with 0. pose proof (zlen_nonneg w). lia.
  - rewrite sumf_cons. change (sumf msize []) with 0. unfold msize. cbn [fst snd]. rewrite !zlen_app, zlen_cons, !zlen_app.
    pose proof (str_room k). pose proof (string_len _ _ s). pose proof (zlen_nonneg w1). pose proof (zlen_nonneg w2). pose proof (zlen_nonneg w3). pose proof (zlen_nonneg w4). lia.
  - rewrite sumf_cons. unfold msize at 1. cbn [fst snd]. rewrite !zlen_app, zlen_cons, !zlen_app, zlen_cons.
    pose proof (str_room k). pose proof (string_len _ _ s). pose proof (zlen_nonneg w1). pose proof (zlen_nonneg w2). pose proof (zlen_nonneg w3). pose proof (zlen_nonneg w4). lia.
  - change (sumf asize []) with 0. pose proof (zlen_nonneg w). lia.
  - rewrite sumf_cons. change (sumf asize []) with 0. unfold asize. rewrite !zlen_app. pose proof (zlen_nonneg w1). pose proof (zlen_nonneg w2). lia.
  - rewrite sumf_cons. unfold asize at 1. rewrite !zlen_app, zlen_cons. pose proof (zlen_nonneg w1). pose proof (zlen_nonneg w2). lia.
Qed.

Lemma text_size t d : json_text t d -> jsize d <= 8 * zlen t.
Proof.
  intros (w & u & rest & -> & _ & T). apply (proj1 text_room) in T. rewrite !zlen_app.
  pose proof (pad8_bounds (jsize d)). pose proof (zlen_nonneg w). pose proof (zlen_nonneg rest). lia.
Qed.
