(** Properties of inject, project and make_object on finalized objects: C10, C11,
    C12, C41. *)

From Coq Require Import ZArith List Bool Sorted Permutation Lia String.
From Verif Require Import Base BaseFacts Keys KeysFacts Wire Read Buf Merge Enc EncSize Spec ReadFacts Lookup BufFacts
  Canon HeapOps HeapFacts HistFacts InjectFacts MergeFacts MergeEmit MergeTop MakeFacts PropsHeap Demo.
Import ListNotations.
Open Scope string_scope.
Open Scope list_scope.
Open Scope Z_scope.

(** ** C10 *)

(** Merging a finalized object into another: the new block holds exactly the
    union, the incoming value winning, and nothing outside the block is touched.
    (Room is the subject of C11; the size bound is the one the format imposes.) *)
Theorem c10_merge bs m e fb bs' m' e' fi u :
  represents bs m e (VObj fb) -> represents bs' m' e' (VObj fi) -> is_union fb fi u ->
  esize (VObj fb) + esize (VObj fi) < 2 ^ 32 -> room_union fb fi u ->
  exists o o' out, snd e = Some o /\ snd e' = Some o' /\
    merge_buffers (mk_source bs m o) (mk_source bs' m' o') = Ok out /\
    zlen out = esize (VObj fb) + esize (VObj fi) /\
    (forall base, base mod 8 = 0 -> represents base out (R_object, Some 0) (VObj u)) /\
    b_size out (R_object, Some 0) = Ok (zlen u).
Proof.
  intros R R' U B RM.
  apply rep_object in R. destruct R as (o & -> & HV & H & F & A).
  apply rep_object in R'. destruct R' as (o' & -> & HV' & H' & F' & A').
  exists o, o'.
  destruct (merge_items matches matches_split (fun _ _ x => x) bs m o fb bs' m' o' fi u H HV F A H' HV' F' A' U) as [G _].
  destruct (G RM) as (its & EI & OI & _ & EM).
  pose proof (union_len _ _ _ U (proj1 U)) as UL.
  assert (SU : esize (VObj u) <= esize (VObj fb) + esize (VObj fi)).
  { apply (fend_size u (zlen fb + zlen fi)); [assumption| |exact RM].
    rewrite Z.add_mod, !esize_mod8 by lia. reflexivity. }
  assert (FU : fits (VObj u)) by (apply (fits_union fb fi u F F' U); lia).
  assert (RP : forall base, base mod 8 = 0 -> represents base
    (cobj its ++ zeros (esize (VObj fb) + esize (VObj fi) - esize (VObj u))) (R_object, Some 0) (VObj u)).
  { intros base Hb. apply built_represents; auto. exact (heap_union fb fi u HV HV' U). }
  eexists. split; [reflexivity|]. split; [reflexivity|]. split; [exact EM|]. split; [|split; [exact RP|]].
  - rewrite zlen_app, zlen_cobj, EI by assumption. rewrite zlen_zeros by lia. lia.
  - rewrite (b_size_spec _ _ _ _ (RP 0 eq_refl)). reflexivity.
Qed.
Print Assumptions c10_merge.

(** The bytes are those of finalizing the mutable union, so that merged objects
    compare equal byte by byte with objects built any other way. *)
Theorem c10_same_bytes bs m o fb bs' m' o' fi :
  represents bs m (R_object, Some o) (VObj fb) -> clean m o fb ->
  represents bs' m' (R_object, Some o') (VObj fi) -> clean m' o' fi ->
  exists u, h_inject (VObj fb) (str_pairs fi) = Ok (VObj u) /\ is_union fb fi u /\
  (room_union fb fi u ->
   merge_buffers (mk_source bs m o) (mk_source bs' m' o') =
     Ok (fill (enc (VObj u)) ++ zeros (esize (VObj fb) + esize (VObj fi) - esize (VObj u))) /\
   forall mh, finalize (VObj u) = Ok mh ->
     firstn (Z.to_nat (esize (VObj u))) mh = fill (enc (VObj u))).
Proof.
  intros R C R' C'.
  apply rep_object in R. destruct R as (o1 & E1 & HV & H & F & A). injection E1 as <-.
  apply rep_object in R'. destruct R' as (o2 & E2 & HV' & H' & F' & A'). injection E2 as <-.
  destruct (h_inject_ok fi fb (heap_okmap _ HV) (heap_short_keys _ HV')) as (u & EU & [Su KU] & LU).
  assert (U : is_union fb fi u).
  { split; [exact Su|]. intros k. rewrite LU.
    pose proof (lookup_perm _ _ (Permutation_rev fi) (sorted_nodup _ (heap_sorted _ HV')) k) as X.
    unfold str in *. rewrite <- X. reflexivity. }
  exists u. split; [exact EU|]. split; [exact U|]. intros RM. split.
  - destruct (merge_items filled filled_split filled_matches bs m o fb bs' m' o' fi u C HV F A C' HV' F' A' U) as [G _].
    destruct (G RM) as (its & EI & OI & QI & EM). rewrite EM, (cobj_filled its QI), EI. reflexivity.
  - intros mh E. pose proof (heap_union _ _ _ HV HV' U) as HU. pose proof (plain_short _ (heap_plain _ HU)) as SS.
    destruct (upper_bound_cases (VObj u)) as [(n & UB & _) | UB]; [|unfold finalize in E; rewrite UB in E; discriminate].
    destruct (finalize_spec u n SS UB) as [_ E']. rewrite E' in E. apply Ok_inj in E. subst mh.
    apply firstn_app_exact. rewrite <- (Nat2Z.id (List.length _)). f_equal. fold (zlen (fill (enc (VObj u)))).
    rewrite zlen_fill. reflexivity.
Qed.
Print Assumptions c10_same_bytes.

(** Freshly finalized objects are clean, and so is whatever merging builds. *)
Theorem c10_finalized_clean fs m : heap_value (VObj fs) -> finalize (VObj fs) = Ok m -> clean m 0 fs.
Proof.
  intros HV E. pose proof (plain_short _ (heap_plain _ HV)) as SS.
  destruct (upper_bound_cases (VObj fs)) as [(n & UB & _) | UB]; [|unfold finalize in E; rewrite UB in E; discriminate].
  destruct (finalize_spec fs n SS UB) as [_ E']. rewrite E' in E. apply Ok_inj in E. subst m.
  exists [], (fill (enc (VObj fs))), (zeros (n - esize (VObj fs))). repeat split.
Qed.
Print Assumptions c10_finalized_clean.

Definition fb0 := [(b "a", VInt 1); (b "c", VStr (b "base")); (b "dd", VNull)].
Definition fi0 := [(b "b", VDec 4609434218613702656); (b "c", VArr [VInt 70000]); (b "e", VBool true)].
Definition fu0 := [(b "a", VInt 1); (b "b", VDec 4609434218613702656); (b "c", VArr [VInt 70000]);
                   (b "e", VBool true); (b "dd", VNull)].
Example c10_case :
  heap_value (VObj fb0) /\ heap_value (VObj fi0) /\ is_union fb0 fi0 fu0 /\ room_union fb0 fi0 fu0 /\
  esize (VObj fb0) + esize (VObj fi0) < 2 ^ 32 /\
  (m <- finalize (VObj fb0) ;; m' <- finalize (VObj fi0) ;; merge_buffers (mk_source 0 m 0) (mk_source 0 m' 0)) =
  (m <- finalize (VObj fu0) ;; Ok (firstn 104 m ++ zeros 32)).
Proof.
  split; [heap_tac|]. split; [heap_tac|]. split; [split; [heap_tac|]|].
  - intros k. unfold fb0, fi0, fu0. cbn [lookup].
    repeat match goal with |- context [list_eq_dec Byte.byte_eq_dec k ?x] =>
      destruct (list_eq_dec Byte.byte_eq_dec k x); [subst k|] end; try reflexivity;
    repeat match goal with |- context [list_eq_dec Byte.byte_eq_dec ?y ?x] =>
      destruct (list_eq_dec Byte.byte_eq_dec y x); try discriminate end; reflexivity.
  - split; [vm_compute; congruence|]. split; [vm_compute; reflexivity|]. vm_compute. reflexivity.
Qed.

(** The public call: inject(k1, v1, ...) on a finalized object. *)
Theorem c10_inject bs m e fb args fs u :
  represents bs m e (VObj fb) -> pairs_stand matches args fs ->
  NoDup (map fst fs) -> Forall (fun kx => zlen (fst kx) <= 65535) fs ->
  is_union fb fs u -> esize (VObj fb) + esize (VObj (sort_by fst fs)) < 2 ^ 32 ->
  room_union fb (sort_by fst fs) u ->
  exists out, b_inject bs m e (flat args) = Ok out /\
    forall base, base mod 8 = 0 -> represents base out (R_object, Some 0) (VObj u).
Proof.
  intros R P N KL U B RM.
  destruct (make_object_ok matches args fs matches_fill (fun _ _ x => x) P N KL) as (n & its & EI & OI & _ & LN & EM).
  assert (U' : is_union fb (sort_by fst fs) u).
  { destruct U as [S L]. split; [exact S|]. intros k. rewrite L, sort_lookup by assumption. reflexivity. }
  assert (HS : heap_value (VObj (sort_by fst fs)) /\ fits (VObj (sort_by fst fs))).
  { assert (HX : forall k x, In (k, x) fs -> zlen k <= 65535 /\ heap_value x /\ fits x).
    { clear - P KL. induction P as [|a [k x] args fs [SK SV] F IH]; intros j y I; [destruct I|].
      inversion KL; subst. destruct I as [E|I]; [|apply IH; assumption]. injection E as <- <-.
      cbn [fst snd] in *. split; [assumption|]. split; [eapply arg_heap|eapply arg_fits]; eassumption. }
    split.
    - constructor; [apply sort_strict; assumption|]. rewrite Forall_forall. intros [k x] I. apply sort_by_in in I.
      destruct (HX k x I) as (A1 & A2 & A3). auto.
    - apply fits_obj. pose proof (esize_nonneg (VObj fb)). split; [|lia]. rewrite Forall_forall. intros [k x] I. apply sort_by_in in I.
      destruct (HX k x I) as (A1 & A2 & A3). cbn [fst snd]. split; [change (2 ^ 32) with 4294967296; lia|assumption]. }
  destruct HS as [HS FS].
  pose proof (built_represents its _ (n - esize (VObj (sort_by fst fs))) 0 EI OI HS FS eq_refl) as RT.
  destruct (c10_merge _ _ _ _ _ _ _ _ _ R RT U' B RM) as (o & o' & out & Eo & Eo' & EQ & _ & RP & _).
  injection Eo' as <-. exists out. split; [|exact RP].
  unfold b_inject. rewrite EM. cbn [bind].
  apply rep_object in R. destruct R as (o1 & -> & _). injection Eo as <-. exact EQ.
Qed.
Print Assumptions c10_inject.

(** ** C11 *)

(** Merging leaves its block exactly when the union does not fit the sum of both
    sizes: there is no other way for it to go wrong. *)
Theorem c11_exact bs m o fb bs' m' o' fi u :
  represents bs m (R_object, Some o) (VObj fb) -> represents bs' m' (R_object, Some o') (VObj fi) ->
  is_union fb fi u ->
  (room_union fb fi u <-> exists out, merge_buffers (mk_source bs m o) (mk_source bs' m' o') = Ok out) /\
  (~ room_union fb fi u <-> merge_buffers (mk_source bs m o) (mk_source bs' m' o') = Oob).
Proof.
  intros R R' U.
  apply rep_object in R. destruct R as (o1 & E1 & HV & H & F & A). injection E1 as <-.
  apply rep_object in R'. destruct R' as (o2 & E2 & HV' & H' & F' & A'). injection E2 as <-.
  destruct (merge_items matches matches_split (fun _ _ x => x) bs m o fb bs' m' o' fi u H HV F A H' HV' F' A' U) as [G G'].
  assert (D : room_union fb fi u \/ ~ room_union fb fi u) by (unfold room_union; lia).
  split; split.
  - intros RM. destruct (G RM) as (its & _ & _ & _ & EM). eauto.
  - intros (out & E). destruct D as [D|D]; [assumption|]. rewrite (G' D) in E. discriminate.
  - exact G'.
  - intros E. destruct D as [D|D]; [|assumption]. destruct (G D) as (its & _ & _ & _ & EM). rewrite EM in E. discriminate.
Qed.
Print Assumptions c11_exact.

(** There always is room when the incoming keys land next to each other in the
    base (the base keys between them, if any, all being replaced); *)
Theorem c11_adjacent b1 d b2 fi : room_union (b1 ++ d ++ b2) fi (b1 ++ fi ++ b2).
Proof. apply room_block. Qed.
Print Assumptions c11_adjacent.


(** and when no value needs an alignment above two. *)
Theorem c11_small fb fi u : heap_value (VObj fb) -> heap_value (VObj fi) -> is_union fb fi u ->
  Forall (fun kx => al (snd kx) <= 2) (fb ++ fi) -> room_union fb fi u.
Proof. intros Hb Hi. apply room_small; apply heap_sorted; assumption. Qed.
Print Assumptions c11_small.

(** One incoming pair always lands in one place. *)
Lemma munion_one i : forall ib, exists b1 d b2, ib = b1 ++ d ++ b2 /\ munion ib [i] = b1 ++ [i] ++ b2.
Proof.
  induction ib as [|b0 ib (b1 & d & b2 & E & U)]; [exists [], [], []; split; reflexivity|]. rewrite munion_cons.
  destruct (dart_ltb (i_key b0) (i_key i)); [|destruct (dart_ltb (i_key i) (i_key b0))].
  - exists (b0 :: b1), d, b2. rewrite U, E at 1. split; reflexivity.
  - exists [], [], (b0 :: ib). rewrite munion_nil_r. split; reflexivity.
  - exists [], [b0], ib. rewrite munion_nil_r. split; reflexivity.
Qed.

Theorem c11_single fb k x u : heap_value (VObj fb) -> is_union fb [(k, x)] u -> room_union fb [(k, x)] u.
Proof.
  intros HV U. destruct (plain_items fb) as (ib & Eb).
  assert (Si : sortedi [mk_item k x []]) by (repeat constructor).
  pose proof (union_of ib [mk_item k x []] _ _ _ Eb eq_refl (kv_sorted _ _ Eb (heap_sorted _ HV)) Si U) as EU.
  destruct (munion_one (mk_item k x []) ib) as (b1 & d & b2 & E & M).
  rewrite M, !map_app in EU. rewrite <- EU, <- Eb, E, !map_app. apply (room_block (map kv b1) (map kv d) (map kv b2) [(k, x)]).
Qed.
Print Assumptions c11_single.

(** So the public call with one pair never leaves its block and gives what
    inserting into the mutable object gives. *)
Theorem c11_inject_one bs m e fb ka va k x :
  represents bs m e (VObj fb) -> stands_for matches ka (VStr k) -> stands_for matches va x -> zlen k <= 65535 ->
  esize (VObj fb) + esize (VObj [(k, x)]) < 2 ^ 32 ->
  exists u i out, h_insert (VObj fb) (VStr k) x = Ok (VObj u, i) /\ b_inject bs m e [ka; va] = Ok out /\
    forall base, base mod 8 = 0 -> represents base out (R_object, Some 0) (VObj u).
Proof.
  intros R SK SV KL B. pose proof R as R0. apply rep_object in R0. destruct R0 as (o & _ & HV & _).
  destruct (h_insert_spec fb (heap_sorted _ HV) k x KL) as (u & i & EI & Su & Lu & _).
  assert (U : is_union fb [(k, x)] u).
  { split; [exact Su|]. intros j. rewrite Lu. cbn [lookup]. destruct (list_eq_dec Byte.byte_eq_dec j k); reflexivity. }
  destruct (c10_inject bs m e fb [(ka, va)] [(k, x)] u R) as (out & EO & RP).
  - repeat constructor; assumption.
  - repeat constructor. intros [].
  - repeat constructor. assumption.
  - exact U.
  - exact B.
  - apply c11_single; assumption.
  - exists u, i, out. auto.
Qed.
Print Assumptions c11_inject_one.

(** With several keys that interleave the claim fails: eight short integers
    merged with eight long ones are written past the end of the block. *)
Definition s1 := [(b "b", VInt 1); (b "d", VInt 1); (b "f", VInt 1); (b "h", VInt 1); (b "j", VInt 1); (b "l", VInt 1);
                  (b "n", VInt 1); (b "q", VInt 1)].
Definition s2 := [(b "a", VInt (2 ^ 40)); (b "c", VInt (2 ^ 40)); (b "e", VInt (2 ^ 40)); (b "g", VInt (2 ^ 40));
                  (b "i", VInt (2 ^ 40)); (b "k", VInt (2 ^ 40)); (b "m", VInt (2 ^ 40)); (b "p", VInt (2 ^ 40))].
Theorem c11_overflow_refuted : exists fb fi m m',
  heap_value (VObj fb) /\ heap_value (VObj fi) /\ finalize (VObj fb) = Ok m /\ finalize (VObj fi) = Ok m' /\
  merge_buffers (mk_source 0 m 0) (mk_source 0 m' 0) = Oob.
Proof.
  assert (E : (m <- finalize (VObj s1) ;; m' <- finalize (VObj s2) ;; merge_buffers (mk_source 0 m 0) (mk_source 0 m' 0)) = Oob)
    by (vm_compute; reflexivity).
  assert (K1 : exists m, finalize (VObj s1) = Ok m).
  { destruct (finalize (VObj s1)) as [m| | | |] eqn:C; [exists m; reflexivity|exfalso; revert C; vm_compute; discriminate..]. }
  assert (K2 : exists m, finalize (VObj s2) = Ok m).
  { destruct (finalize (VObj s2)) as [m| | | |] eqn:C; [exists m; reflexivity|exfalso; revert C; vm_compute; discriminate..]. }
  destruct K1 as (m & K1), K2 as (m' & K2). rewrite K1 in E. cbn [bind] in E. rewrite K2 in E. cbn [bind] in E.
  exists s1, s2, m, m'. split; [heap_tac|]. split; [heap_tac|]. auto.
Qed.
Print Assumptions c11_overflow_refuted.

(** Four pairs on each side are enough. *)
Example c11_overflow_small :
  (m <- finalize (VObj [(b "b", VNull); (b "d", VInt (2 ^ 40)); (b "f", VNull); (b "h", VNull)]) ;;
   m' <- finalize (VObj [(b "a", VNull); (b "c", VInt (2 ^ 40)); (b "e", VNull); (b "g", VInt (2 ^ 40))]) ;;
   merge_buffers (mk_source 0 m 0) (mk_source 0 m' 0)) = Oob.
Proof. vm_compute. reflexivity. Qed.

(** The hypotheses of the positive results are met by ordinary data. *)
Example c11_case :
  room_union fb0 fi0 fu0 /\ ~ room_union s1 s2 (sort_by fst (s1 ++ s2)) /\
  Forall (fun kx => al (snd kx) <= 2) (s1 ++ [(b "x", VStr (b "abc")); (b "y", VBool true); (b "z", VNull)]).
Proof.
  split; [vm_compute; congruence|]. split.
  - vm_compute. intros H. apply H. reflexivity.
  - repeat constructor; vm_compute; congruence.
Qed.

(** ** C12 *)

(** Projecting a finalized object onto any list of keys, with duplicates and
    absent keys in any order. *)
Theorem c12_project bs m e fs keys u :
  represents bs m e (VObj fs) -> is_selection fs keys u -> zlen keys <= zlen fs ->
  exists out, b_project bs m e keys = Ok out /\ zlen out = esize (VObj fs) /\
    (forall base, base mod 8 = 0 -> represents base out (R_object, Some 0) (VObj u)) /\
    b_size out (R_object, Some 0) = Ok (zlen u).
Proof.
  intros R U L. apply rep_object in R. destruct R as (o & -> & HV & H & F & A).
  pose proof (heap_sorted _ HV) as S. pose proof (room_enough _ _ _ S U L) as RM.
  destruct (project_items matches matches_split (fun _ _ x => x) bs m o fs keys u H HV F A U) as [G _].
  destruct (G RM) as (its & EI & OI & _ & EM).
  assert (SU : esize (VObj u) <= esize (VObj fs)).
  { apply (fend_size u (zlen keys)); [eapply selection_len; eassumption|apply esize_mod8|exact RM]. }
  assert (FU : fits (VObj u)).
  { apply (fits_selection fs keys u S F U). pose proof (fits_size _ F eq_refl). lia. }
  assert (RP : forall base, base mod 8 = 0 -> represents base
    (cobj its ++ zeros (esize (VObj fs) - esize (VObj u))) (R_object, Some 0) (VObj u)).
  { intros base Hb. apply built_represents; auto. exact (heap_selection fs keys u HV U). }
  eexists. split; [exact EM|]. split; [|split; [exact RP|]].
  - rewrite zlen_app, zlen_cobj, EI by assumption. rewrite zlen_zeros by lia. lia.
  - rewrite (b_size_spec _ _ _ _ (RP 0 eq_refl)). reflexivity.
Qed.
Print Assumptions c12_project.

(** The bytes are those of finalizing the projection of the mutable object. *)
Theorem c12_same_bytes bs m o fs keys :
  represents bs m (R_object, Some o) (VObj fs) -> clean m o fs -> zlen keys <= zlen fs ->
  exists u, h_project (VObj fs) keys = Ok (VObj u) /\ is_selection fs keys u /\
  b_project bs m (R_object, Some o) keys =
    Ok (fill (enc (VObj u)) ++ zeros (esize (VObj fs) - esize (VObj u))) /\
  forall mh, finalize (VObj u) = Ok mh ->
     firstn (Z.to_nat (esize (VObj u))) mh = fill (enc (VObj u)).
Proof.
  intros R C L. apply rep_object in R. destruct R as (o1 & E1 & HV & H & F & A). injection E1 as <-.
  pose proof (heap_sorted _ HV) as S.
  destruct (h_project_ok fs keys (heap_okmap _ HV)) as (u & EU & [Su KU] & LU).
  assert (U : is_selection fs keys u) by (split; assumption).
  exists u. split; [exact EU|]. split; [exact U|]. split.
  - destruct (project_items filled filled_split filled_matches bs m o fs keys u C HV F A U) as [G _].
    destruct (G (room_enough _ _ _ S U L)) as (its & EI & OI & QI & EM).
    change (b_project bs m (R_object, Some o) keys) with (project_keys (mk_source bs m o) keys).
    rewrite EM, (cobj_filled its QI), EI. reflexivity.
  - intros mh E. pose proof (heap_selection _ _ _ HV U) as HU. pose proof (plain_short _ (heap_plain _ HU)) as SS.
    destruct (upper_bound_cases (VObj u)) as [(n & UB & _) | UB]; [|unfold finalize in E; rewrite UB in E; discriminate].
    destruct (finalize_spec u n SS UB) as [_ E']. rewrite E' in E. apply Ok_inj in E. subst mh.
    apply firstn_app_exact. rewrite <- (Nat2Z.id (List.length _)). f_equal. fold (zlen (fill (enc (VObj u)))).
    rewrite zlen_fill. reflexivity.
Qed.
Print Assumptions c12_same_bytes.

(** With more keys than pairs the outcome depends on whether the oversized vtable
    leaves room, and nothing else. *)
Theorem c12_exact bs m o fs keys u :
  represents bs m (R_object, Some o) (VObj fs) -> is_selection fs keys u ->
  (room_selection fs keys u <-> exists out, b_project bs m (R_object, Some o) keys = Ok out) /\
  (~ room_selection fs keys u <-> b_project bs m (R_object, Some o) keys = Oob).
Proof.
  intros R U. apply rep_object in R. destruct R as (o1 & E1 & HV & H & F & A). injection E1 as <-.
  destruct (project_items matches matches_split (fun _ _ x => x) bs m o fs keys u H HV F A U) as [G G'].
  change (b_project bs m (R_object, Some o) keys) with (project_keys (mk_source bs m o) keys).
  assert (D : room_selection fs keys u \/ ~ room_selection fs keys u) by (unfold room_selection; lia).
  split; split.
  - intros RM. destruct (G RM) as (its & _ & _ & _ & EM). eauto.
  - intros (out & E). destruct D as [D|D]; [assumption|]. rewrite (G' D) in E. discriminate.
  - exact G'.
  - intros E. destruct D as [D|D]; [|assumption]. destruct (G D) as (its & _ & _ & _ & EM). rewrite EM in E. discriminate.
Qed.
Print Assumptions c12_exact.

(** One absent key on top of the only pair is written outside the block; so is
    the projection of an empty object onto any key. *)
Theorem c12_overflow_refuted :
  (m <- finalize (VObj [(b "a", VInt 1)]) ;; b_project 0 m (R_object, Some 0) [b "a"; b "b"]) = Oob /\
  (m <- finalize (VObj []) ;; b_project 0 m (R_object, Some 0) [b "a"]) = Oob.
Proof. split; vm_compute; reflexivity. Qed.
Print Assumptions c12_overflow_refuted.

Example c12_case :
  heap_value (VObj fu0) /\
  is_selection fu0 [b "e"; b "zz"; b "a"; b "e"] [(b "a", VInt 1); (b "e", VBool true)] /\
  zlen [b "e"; b "zz"; b "a"; b "e"] <= zlen fu0 /\
  (m <- finalize (VObj fu0) ;; b_project 0 m (R_object, Some 0) [b "e"; b "zz"; b "a"; b "e"]) =
  (m <- finalize (VObj [(b "a", VInt 1); (b "e", VBool true)]) ;; Ok (firstn 40 m ++ zeros 64)).
Proof.
  split; [heap_tac|]. split; [split; [heap_tac|]|].
  - intros k. destruct (in_dec (list_eq_dec Byte.byte_eq_dec) k _) as [I|N].
    + cbn [In] in I. destruct I as [<-|[<-|[<-|[<-|[]]]]]; vm_compute; reflexivity.
    + cbn [lookup].
      destruct (list_eq_dec Byte.byte_eq_dec k (b "a")) as [->|]; [exfalso; apply N; cbn [In]; auto|].
      destruct (list_eq_dec Byte.byte_eq_dec k (b "e")) as [->|]; [exfalso; apply N; cbn [In]; auto|]. reflexivity.
  - split; [vm_compute; congruence|]. vm_compute. reflexivity.
Qed.

(** ** C41 *)

(** make_object refuses exactly repeated and overlong keys... *)
Theorem c41_refuses args fs : pairs_stand matches args fs ->
  ~ (NoDup (map fst fs) /\ Forall (fun kx => zlen (fst kx) <= 65535) fs) ->
  make_object (flat args) = Throw invalid_argument.
Proof. apply make_object_bad. auto. Qed.
Print Assumptions c41_refuses.

(** ...and lists of arguments that are not pairs of a string and a value. *)
Theorem c41_refuses_shape args fs k rest : pairs_stand matches args fs ->
  (rest = [] \/ exists v, stands_for matches k v /\ forall s, v <> VStr s) ->
  make_object (flat args ++ k :: rest) = Throw invalid_argument.
Proof.
  intros P H. unfold make_object. assert (E : pair_up (flat args ++ k :: rest) = Throw invalid_argument).
  { induction P as [|[a c] [j x] args fs [SK SV] F IH]; cbn [flat app].
    - destruct H as [-> | (v & SV & N)]; [reflexivity|]. destruct rest as [|y rest]; [reflexivity|]. cbn [pair_up].
      rewrite (arg_strv_spec matches _ _ SV). destruct v; try reflexivity. exfalso. eapply N. reflexivity.
    - cbn [fst snd] in *. cbn [pair_up]. rewrite (arg_strv_spec matches _ _ SK). cbn [bind]. rewrite IH. reflexivity. }
  rewrite E. reflexivity.
Qed.
Print Assumptions c41_refuses_shape.

Lemma okmap_nil : okmap [].
Proof. split; [constructor|]. intros k H. exfalso. apply H. reflexivity. Qed.

(** Otherwise it builds what inserting the pairs into an empty mutable object
    gives, inside its block. *)
Theorem c41_builds args fs : pairs_stand matches args fs -> NoDup (map fst fs) ->
  Forall (fun kx => zlen (fst kx) <= 65535) fs ->
  exists u out, h_inject (VObj []) (str_pairs fs) = Ok (VObj u) /\ make_object (flat args) = Ok out /\
    esize (VObj u) <= zlen out /\
    (esize (VObj u) < 2 ^ 32 -> forall base, base mod 8 = 0 -> represents base out (R_object, Some 0) (VObj u)).
Proof.
  intros P N KL.
  destruct (make_object_ok matches args fs matches_fill (fun _ _ x => x) P N KL) as (n & its & EI & OI & _ & LN & EM).
  destruct (h_inject_ok fs [] okmap_nil KL) as (u & EU & [Su KU] & LU).
  assert (Eu : u = sort_by fst fs).
  { apply sorted_ext; [assumption|apply sort_strict; assumption|]. intros k. rewrite LU, sort_lookup by assumption.
    pose proof (lookup_perm _ _ (Permutation_rev fs) N k) as X. unfold str in *. rewrite <- X. cbn [lookup].
    destruct (lookup k fs); reflexivity. }
  subst u. eexists. eexists. split; [exact EU|]. split; [exact EM|]. split.
  - rewrite zlen_app, zlen_cobj, EI by assumption. rewrite zlen_zeros by lia. lia.
  - intros B base Hb.
    assert (HX : forall k x, In (k, x) fs -> zlen k <= 65535 /\ heap_value x /\ fits x).
    { clear - P KL. induction P as [|a [k x] args fs [SK SV] F IH]; intros j y I; [destruct I|].
      inversion KL; subst. destruct I as [E|I]; [|apply IH; assumption]. injection E as <- <-.
      cbn [fst snd] in *. split; [assumption|]. split; [eapply arg_heap|eapply arg_fits]; eassumption. }
    apply built_represents; try assumption.
    + constructor; [apply sort_strict; assumption|]. rewrite Forall_forall. intros [k x] I. apply sort_by_in in I.
      destruct (HX k x I) as (A1 & A2 & A3). auto.
    + apply fits_obj. split; [|lia]. rewrite Forall_forall. intros [k x] I. apply sort_by_in in I.
      destruct (HX k x I) as (A1 & A2 & A3). cbn [fst snd]. split; [change (2 ^ 32) with 4294967296; lia|assumption].
Qed.
Print Assumptions c41_builds.

(** Byte for byte, when the finalized arguments are clean. *)
Theorem c41_same_bytes args fs u mh : pairs_stand filled args fs -> NoDup (map fst fs) ->
  Forall (fun kx => zlen (fst kx) <= 65535) fs ->
  h_inject (VObj []) (str_pairs fs) = Ok (VObj u) -> heap_value (VObj u) -> finalize (VObj u) = Ok mh ->
  exists z z', make_object (flat args) = Ok (fill (enc (VObj u)) ++ zeros z) /\
               mh = fill (enc (VObj u)) ++ zeros z'.
Proof.
  intros P N KL EU HU E.
  destruct (make_object_ok filled args fs (fun p => eq_refl) filled_matches P N KL) as (n & its & EI & OI & QI & LN & EM).
  destruct (h_inject_ok fs [] okmap_nil KL) as (u' & EU' & [Su KU] & LU).
  rewrite EU' in EU. apply Ok_inj in EU. injection EU as ->.
  assert (Eu : u = sort_by fst fs).
  { apply sorted_ext; [assumption|apply sort_strict; assumption|]. intros k. rewrite LU, sort_lookup by assumption.
    pose proof (lookup_perm _ _ (Permutation_rev fs) N k) as X. unfold str in *. rewrite <- X. cbn [lookup].
    destruct (lookup k fs); reflexivity. }
  rewrite (cobj_filled its QI), EI, <- Eu in EM.
  pose proof (plain_short _ (heap_plain _ HU)) as SS.
  destruct (upper_bound_cases (VObj u)) as [(n' & UB & _) | UB]; [|unfold finalize in E; rewrite UB in E; discriminate].
  destruct (finalize_spec u n' SS UB) as [_ E']. rewrite E' in E. apply Ok_inj in E.
  eexists. eexists. split; [exact EM|]. symmetry. exact E.
Qed.
Print Assumptions c41_same_bytes.

(** The order of the pairs does not matter at all. *)
Theorem c41_any_order args args' fs : pairs_stand matches args fs -> NoDup (map fst fs) -> Permutation args args' ->
  make_object (flat args) = make_object (flat args').
Proof.
  intros P N PM. unfold make_object.
  set (g := fun a : arg * arg => mk_mpair (match arg_strv (fst a) with Ok s => s | _ => [] end) (fst a) (snd a)).
  assert (E : forall l, incl l args -> pair_up (flat l) = Ok (map g l)).
  { intros l I. induction l as [|[a c] l IH]; [reflexivity|]. cbn [flat pair_up map].
    assert (exists s, arg_strv a = Ok s) as (s & Es).
    { assert (J : In (a, c) args) by (apply I; left; reflexivity). clear - P J.
      induction P as [|[a' c'] [k x] args fs [SK SV] F IH]; [destruct J|].
      destruct J as [E|J]; [|auto]. injection E as -> ->. exists k. cbn [fst] in SK.
      exact (arg_strv_spec matches _ _ SK). }
    rewrite Es. cbn [bind]. rewrite IH by (intros y J; apply I; right; exact J). cbn [bind].
    unfold g at 2. cbn [fst snd]. rewrite Es. reflexivity. }
  rewrite (E args) by (apply incl_refl). rewrite (E args') by (intros y J; eapply Permutation_in; [apply Permutation_sym|]; eassumption).
  cbn [bind]. unfold build_buffer.
  assert (EK : map mp_str (map g args) = map fst fs).
  { clear - P. induction P as [|[a c] [k x] args fs [SK SV] F IH]; [reflexivity|]. cbn [map fst]. f_equal; [|exact IH].
    unfold g. cbn [mp_str fst]. cbn [fst] in SK. rewrite (arg_strv_spec matches _ _ SK). reflexivity. }
  rewrite (sort_perm mp_str (map g args) (map g args')); [reflexivity|apply Permutation_map; assumption|].
  rewrite EK. exact N.
Qed.
Print Assumptions c41_any_order.

(** Nothing checks the total against the format's 32-bit sizes: an object too
    large for the format is built all the same and records its size modulo 2^32,
    where finalizing the mutable object throws. *)
Theorem c41_size_unchecked_refuted args fs : pairs_stand matches args fs -> NoDup (map fst fs) ->
  Forall (fun kx => zlen (fst kx) <= 65535) fs -> 2 ^ 32 <= esize (VObj (sort_by fst fs)) ->
  exists out, make_object (flat args) = Ok out /\ 2 ^ 32 <= zlen out /\
    rd_le out 0 4 = Ok (esize (VObj (sort_by fst fs)) mod 2 ^ 32).
Proof.
  intros P N KL B.
  destruct (make_object_ok matches args fs matches_fill (fun _ _ x => x) P N KL) as (n & its & EI & OI & _ & LN & EM).
  eexists. split; [exact EM|]. split.
  - rewrite zlen_app, zlen_cobj, EI by assumption. rewrite zlen_zeros by lia. lia.
  - unfold cobj. cbv zeta. rewrite EI, <- !app_assoc. apply (rd_le_app []). reflexivity.
Qed.
Print Assumptions c41_size_unchecked_refuted.

Lemma some_string n : 0 <= n -> exists s : str, zlen s = n.
Proof. intros H. exists (zeros n). apply zlen_zeros. exact H. Qed.

(** Two strings of 2^31 bytes do it. *)
Example c41_size_case : exists args fs, pairs_stand matches args fs /\ NoDup (map fst fs) /\
  Forall (fun kx => zlen (fst kx) <= 65535) fs /\ 2 ^ 32 <= esize (VObj (sort_by fst fs)).
Proof.
  destruct (some_string (2 ^ 31) ltac:(discriminate)) as (s & LS).
  set (fs := [(b "a", VStr s); (b "b", VStr s)]).
  assert (SF : forall x, zlen x < 2 ^ 32 -> stands_for matches (ArgHeap (VStr x)) (VStr x)).
  { intros x L. split; [reflexivity|]. split; [constructor; exact L|]. eexists. reflexivity. }
  exists (map (fun kx => (ArgHeap (VStr (fst kx)), ArgHeap (snd kx))) fs), fs.
  split; [|split; [|split]].
  - assert (L2 : zlen s < 2 ^ 32) by (rewrite LS; reflexivity).
    apply Forall2_cons; [split; apply SF; [reflexivity|exact L2]|].
    apply Forall2_cons; [split; apply SF; [reflexivity|exact L2]|]. apply Forall2_nil.
  - repeat constructor; cbn; intuition discriminate.
  - repeat constructor; vm_compute; congruence.
  - change (sort_by fst fs) with fs. rewrite esize_fend. unfold fs. rewrite !fend_cons, fend_nil.
    set (p := vpos _ (b "a") (VStr s)). set (q := vpos _ (b "b") (VStr s)).
    pose proof (align_up_ge (q + esize (VStr s)) 8 ltac:(lia)).
    assert (p + esize (VStr s) <= q).
    { unfold q. pose proof (vpos_ge (p + esize (VStr s)) (b "b") (VStr s)). pose proof (kpos_ge (p + esize (VStr s))).
      pose proof (zlen_nonneg (enc_str (b "b"))). lia. }
    assert (0 <= p). { unfold p. pose proof (vpos_ge (8 + 8 * zlen fs) (b "a") (VStr s)). pose proof (kpos_ge (8 + 8 * zlen fs)).
      pose proof (zlen_nonneg (enc_str (b "a"))). pose proof (zlen_nonneg fs). unfold fs in *. lia. }
    assert (2 ^ 31 <= esize (VStr s)).
    { unfold esize. cbn [enc]. rewrite zlen_sb, zlen_enc_str. lia. }
    change (2 ^ 32) with (2 ^ 31 + 2 ^ 31). lia.
Qed.

Example c41_case :
  pairs_stand matches [(ArgHeap (VStr (b "c")), ArgHeap (VInt 5)); (ArgHeap (VStr (b "a")), ArgHeap (VArr [VNull]))]
                      [(b "c", VInt 5); (b "a", VArr [VNull])] /\
  (m <- finalize (VObj [(b "a", VArr [VNull]); (b "c", VInt 5)]) ;; Ok (firstn 56 m)) =
  (m <- make_object [ArgHeap (VStr (b "c")); ArgHeap (VInt 5); ArgHeap (VStr (b "a")); ArgHeap (VArr [VNull])] ;; Ok (firstn 56 m)) /\
  make_object [ArgHeap (VStr (b "c")); ArgHeap (VInt 5); ArgHeap (VStr (b "a")); ArgHeap VNull; ArgHeap (VStr (b "c")); ArgHeap VNull] =
    Throw invalid_argument.
Proof.
  split; [|split; vm_compute; reflexivity].
  repeat constructor; cbn [fst snd]; try heap_tac; eexists; vm_compute; reflexivity.
Qed.
