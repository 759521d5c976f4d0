(** Nested calls of finalizing and comparing: how many are needed. *)

From Coq Require Import ZArith List Bool Lia ZifyBool ZifyNat Sorted.
From Verif Require Import Base BaseFacts Keys KeysFacts Dec Wire Read Buf HeapOps HeapFacts Enc Spec ReadFacts Lookup BufFacts Canon NestedFacts
  Packet PacketRun SpecCmp Compare CompareFacts CompareBuf CompareGen SpecCost Depth Deeper SpecDeeper.
Import ListNotations.
Open Scope Z_scope.

Lemma pair_levels_in k x fs : In (k, x) fs -> (levels x <= pair_levels fs)%nat.
Proof. induction fs as [|[j y] r IH]; intros []; cbn [pair_levels]; [injection H as -> ->; lia|specialize (IH H); lia]. Qed.
Lemma elem_levels_in x vs : In x vs -> (levels x <= elem_levels vs)%nat.
Proof. induction vs as [|y r IH]; intros []; cbn [elem_levels]; [subst; lia|specialize (IH H); lia]. Qed.

(** ** upper_bound *)
Lemma bound_fields f fs : (pair_levels fs <= f)%nat -> (forall v, (levels v <= f)%nat -> bound_within f v = upper_bound v) ->
  forall a, ub_fields (bound_within f) fs a = ub_fields upper_bound fs a.
Proof.
  intros L IH. induction fs as [|[k x] r IHr]; intros a; [reflexivity|]. cbn [pair_levels] in L. cbn [ub_fields].
  rewrite IH by lia. destruct (upper_bound x); cbn [bind]; try reflexivity. apply IHr. lia.
Qed.
Lemma bound_elems f vs : (elem_levels vs <= f)%nat -> (forall v, (levels v <= f)%nat -> bound_within f v = upper_bound v) ->
  forall a, ub_elems (bound_within f) vs a = ub_elems upper_bound vs a.
Proof.
  intros L IH. induction vs as [|x r IHr]; intros a; [reflexivity|]. cbn [elem_levels] in L. cbn [ub_elems].
  rewrite IH by lia. destruct (upper_bound x); cbn [bind]; try reflexivity. apply IHr. lia.
Qed.
Lemma bound_enough f : forall v, (levels v <= f)%nat -> bound_within f v = upper_bound v.
Proof.
  induction f as [|f IH]; intros v L; [pose proof (levels_pos v); lia|].
  destruct v; try reflexivity; cbn [bound_within upper_bound].
  - rewrite levels_obj in L. rewrite bound_fields by (assumption || lia). reflexivity.
  - rewrite levels_arr in L. rewrite bound_elems by (assumption || lia). reflexivity.
Qed.
Lemma bound_fields_short f fs : (f < pair_levels fs)%nat ->
  (forall v u, upper_bound v = Ok u -> (f < levels v)%nat -> bound_within f v = Fuel) ->
  forall a u c, ub_fields upper_bound fs a = Ok u -> ub_fields (bound_within f) fs c = Fuel.
Proof.
  intros L IH. induction fs as [|[k x] r IHr]; intros a u c E; [cbn [pair_levels] in L; lia|].
  cbn [pair_levels] in L. cbn [ub_fields] in *. destruct (upper_bound x) as [z| | | |] eqn:U; cbn [bind] in E; try discriminate E.
  destruct (le_lt_dec (levels x) f) as [H|H].
  - rewrite (bound_enough f x H), U. cbn [bind]. eapply IHr; [lia|exact E].
  - rewrite (IH _ _ U H). reflexivity.
Qed.
Lemma bound_elems_short f vs : (f < elem_levels vs)%nat ->
  (forall v u, upper_bound v = Ok u -> (f < levels v)%nat -> bound_within f v = Fuel) ->
  forall a u c, ub_elems upper_bound vs a = Ok u -> ub_elems (bound_within f) vs c = Fuel.
Proof.
  intros L IH. induction vs as [|x r IHr]; intros a u c E; [cbn [elem_levels] in L; lia|].
  cbn [elem_levels] in L. cbn [ub_elems] in *. destruct (upper_bound x) as [z| | | |] eqn:U; cbn [bind] in E; try discriminate E.
  destruct (le_lt_dec (levels x) f) as [H|H].
  - rewrite (bound_enough f x H), U. cbn [bind]. eapply IHr; [lia|exact E].
  - rewrite (IH _ _ U H). reflexivity.
Qed.
Lemma bound_short f : forall v u, upper_bound v = Ok u -> (f < levels v)%nat -> bound_within f v = Fuel.
Proof.
  induction f as [|f IH]; intros v u E L; [reflexivity|].
  destruct v; try (cbn [levels] in L; lia); cbn [bound_within upper_bound] in *.
  - rewrite levels_obj in L. destruct (ub_fields upper_bound fs _) as [z| | | |] eqn:U; cbn [bind] in E; try discriminate E.
    rewrite (bound_fields_short f fs ltac:(lia) IH _ _ _ U). reflexivity.
  - rewrite levels_arr in L. destruct (ub_elems upper_bound vs _) as [z| | | |] eqn:U; cbn [bind] in E; try discriminate E.
    rewrite (bound_elems_short f vs ltac:(lia) IH _ _ _ U). reflexivity.
Qed.

(** ** layout *)
Lemma lay_fields f o fs : (pair_levels fs <= f)%nat ->
  (forall v m o, (levels v <= f)%nat -> layout_within f m o v = layout m o v) ->
  forall m a i, layout_fields (layout_within f) o fs m a i = layout_fields layout o fs m a i.
Proof.
  intros L IH. induction fs as [|[k x] r IHr]; intros m a i; [reflexivity|]. cbn [pair_levels] in L. cbn [layout_fields]. cbv zeta.
  destruct (wr m _ _) as [m1| | | |]; cbn [bind]; try reflexivity.
  destruct (layout_str m1 _ k) as [[m2 n]| | | |]; cbn [bind]; try reflexivity.
  rewrite IH by lia. destruct (layout m2 _ x) as [[m3 n']| | | |]; cbn [bind]; try reflexivity. apply IHr. lia.
Qed.
Lemma lay_elems f o vs : (elem_levels vs <= f)%nat ->
  (forall v m o, (levels v <= f)%nat -> layout_within f m o v = layout m o v) ->
  forall m a i, layout_elems (layout_within f) o vs m a i = layout_elems layout o vs m a i.
Proof.
  intros L IH. induction vs as [|x r IHr]; intros m a i; [reflexivity|]. cbn [elem_levels] in L. cbn [layout_elems]. cbv zeta.
  destruct (wr m _ _) as [m1| | | |]; cbn [bind]; try reflexivity.
  rewrite IH by lia. destruct (layout m1 _ x) as [[m3 n']| | | |]; cbn [bind]; try reflexivity. apply IHr. lia.
Qed.
Lemma lay_enough f : forall v m o, (levels v <= f)%nat -> layout_within f m o v = layout m o v.
Proof.
  induction f as [|f IH]; intros v m o L; [pose proof (levels_pos v); lia|].
  destruct v; try reflexivity; cbn [layout_within layout].
  - rewrite levels_obj in L. destruct (wr_le m _ _ _); cbn [bind]; try reflexivity. rewrite lay_fields by (assumption || lia). reflexivity.
  - rewrite levels_arr in L. destruct (wr_le m _ _ _); cbn [bind]; try reflexivity. rewrite lay_elems by (assumption || lia). reflexivity.
Qed.
Lemma lay_fields_short f o fs : (f < pair_levels fs)%nat ->
  (forall v m o r, layout m o v = Ok r -> (f < levels v)%nat -> layout_within f m o v = Fuel) ->
  forall m a i r, layout_fields layout o fs m a i = Ok r -> layout_fields (layout_within f) o fs m a i = Fuel.
Proof.
  intros L IH. induction fs as [|[k x] q IHr]; intros m a i r E; [cbn [pair_levels] in L; lia|].
  cbn [pair_levels] in L. cbn [layout_fields] in *. cbv zeta in *.
  destruct (wr m _ _) as [m1| | | |]; cbn [bind] in *; try discriminate E.
  destruct (layout_str m1 _ k) as [[m2 n]| | | |]; cbn [bind] in *; try discriminate E.
  match type of E with context [layout ?m ?o x] => destruct (layout m o x) as [[m3 n']| | | |] eqn:U end; cbn [bind] in E; try discriminate E.
  destruct (le_lt_dec (levels x) f) as [H|H].
  - rewrite (lay_enough f x _ _ H), U. cbn [bind]. eapply IHr; [lia|exact E].
  - rewrite (IH _ _ _ _ U H). reflexivity.
Qed.
Lemma lay_elems_short f o vs : (f < elem_levels vs)%nat ->
  (forall v m o r, layout m o v = Ok r -> (f < levels v)%nat -> layout_within f m o v = Fuel) ->
  forall m a i r, layout_elems layout o vs m a i = Ok r -> layout_elems (layout_within f) o vs m a i = Fuel.
Proof.
  intros L IH. induction vs as [|x q IHr]; intros m a i r E; [cbn [elem_levels] in L; lia|].
  cbn [elem_levels] in L. cbn [layout_elems] in *. cbv zeta in *.
  destruct (wr m _ _) as [m1| | | |]; cbn [bind] in *; try discriminate E.
  match type of E with context [layout ?m ?o x] => destruct (layout m o x) as [[m3 n']| | | |] eqn:U end; cbn [bind] in E; try discriminate E.
  destruct (le_lt_dec (levels x) f) as [H|H].
  - rewrite (lay_enough f x _ _ H), U. cbn [bind]. eapply IHr; [lia|exact E].
  - rewrite (IH _ _ _ _ U H). reflexivity.
Qed.
Lemma lay_short f : forall v m o r, layout m o v = Ok r -> (f < levels v)%nat -> layout_within f m o v = Fuel.
Proof.
  induction f as [|f IH]; intros v m o r E L; [reflexivity|].
  destruct v; try (cbn [levels] in L; lia); cbn [layout_within layout] in *.
  - rewrite levels_obj in L. destruct (wr_le m _ _ _) as [m1| | | |]; cbn [bind] in *; try discriminate E.
    destruct (layout_fields layout _ _ _ _ _) as [z| | | |] eqn:U; cbn [bind] in E; try discriminate E.
    rewrite (lay_fields_short f _ fs ltac:(lia) IH _ _ _ _ U). reflexivity.
  - rewrite levels_arr in L. destruct (wr_le m _ _ _) as [m1| | | |]; cbn [bind] in *; try discriminate E.
    destruct (layout_elems layout _ _ _ _ _) as [z| | | |] eqn:U; cbn [bind] in E; try discriminate E.
    rewrite (lay_elems_short f _ vs ltac:(lia) IH _ _ _ _ U). reflexivity.
Qed.

(** ** Comparing mutable values *)
Lemma hcmp_obj same s fs t gs : hcmp same (HObj s fs) (HObj t gs) =
  same || ((zlen fs =? zlen gs) && all2 (fun a c => ((s =? t) || str_same (fst a) (fst c)) && hcmp (s =? t) (snd a) (snd c)) fs gs).
Proof.
  cbn [hcmp]. destruct same; [reflexivity|]. cbn [orb]. f_equal. revert gs.
  induction fs as [|[k a] l IH]; intros [|[j c] r]; try reflexivity. cbn [all2 fst snd]. rewrite IH. reflexivity.
Qed.
Lemma hcmp_arr same s vs t ws : hcmp same (HArr s vs) (HArr t ws) =
  same || ((zlen vs =? zlen ws) && all2 (hcmp (s =? t)) vs ws).
Proof.
  cbn [hcmp]. destruct same; reflexivity.
Qed.

Lemma in_step_all2 {A} (g : A -> A -> res bool) h l : forall r, List.length l = List.length r ->
  (forall a c, In a l -> In c r -> g a c = Ok (h a c)) -> in_step g l r = Ok (all2 h l r).
Proof.
  induction l as [|a l IH]; intros [|c r] L H; try discriminate L; [reflexivity|].
  cbn [in_step all2]. rewrite H by (left; reflexivity). cbn [bind].
  destruct (h a c); [|reflexivity]. cbn [andb]. apply IH; [cbn in L; lia|]. intros x y I J. apply H; right; assumption.
Qed.
Lemma in_step_sound {A} (g : A -> A -> res bool) h l : (forall a c q, g a c = Ok q -> q = h a c) ->
  forall r q, in_step g l r = Ok q -> q = all2 h l r.
Proof.
  intros H. induction l as [|a l IH]; intros [|c r] q E; cbn [in_step all2] in *; try (injection E as <-; reflexivity).
  destruct (g a c) as [x| | | |] eqn:G; cbn [bind] in E; try discriminate E. apply H in G. subst x.
  destruct (h a c); cbn [andb]; [apply IH; exact E|injection E as <-; reflexivity].
Qed.
Lemma in_step_tame {A} (g : A -> A -> res bool) l : (forall a c, g a c = Fuel \/ exists q, g a c = Ok q) ->
  forall r, in_step g l r = Fuel \/ exists q, in_step g l r = Ok q.
Proof.
  intros H. induction l as [|a l IH]; intros [|c r]; cbn [in_step]; eauto.
  destruct (H a c) as [->|[q ->]]; cbn [bind]; [auto|]. destruct q; eauto.
Qed.
Lemma in_step_true {A} (g : A -> A -> res bool) l : forall r, in_step g l r = Ok true ->
  List.length l = List.length r /\ forall a, In a l -> exists c, In c r /\ g a c = Ok true.
Proof.
  induction l as [|a l IH]; intros [|c r] E; cbn [in_step] in E; try discriminate E; [split; [reflexivity|intros ? []]|].
  destruct (g a c) as [x| | | |] eqn:G; cbn [bind] in E; try discriminate E. destruct x; [|discriminate E].
  destruct (IH _ E) as [L H]. split; [cbn; lia|]. intros y [<-|I]; [exists c; split; [left; reflexivity|assumption]|].
  destruct (H y I) as (z & J & Z). exists z. split; [right; assumption|assumption].
Qed.

Lemma levels_hobj s fs : levels (erase (HObj s fs)) = S (pair_levels (map (fun kv => (fst kv, erase (snd kv))) fs)).
Proof. reflexivity. Qed.
Lemma levels_harr s vs : levels (erase (HArr s vs)) = S (elem_levels (map erase vs)).
Proof. reflexivity. Qed.
Lemma hfield_levels a fs : In a fs -> (levels (erase (snd a)) <= pair_levels (map (fun kv => (fst kv, erase (snd kv))) fs))%nat.
Proof. intros I. apply (pair_levels_in (fst a)). apply in_map_iff. exists a. auto. Qed.
Lemma helem_levels x vs : In x vs -> (levels (erase x) <= elem_levels (map erase vs))%nat.
Proof. intros I. apply elem_levels_in, in_map, I. Qed.

Lemma hcmp_enough f : forall same x y, (levels (erase x) <= f)%nat \/ (levels (erase y) <= f)%nat ->
  hcmp_within f same x y = Ok (hcmp same x y).
Proof.
  induction f as [|f IH]; intros same x y L; [pose proof (levels_pos (erase x)); pose proof (levels_pos (erase y)); lia|].
  destruct same; [destruct x; reflexivity|].
  destruct x as [s fs|s vs| | | | |], y as [t gs|t ws| | | | |]; try reflexivity; cbn [hcmp_within].
  - rewrite hcmp_obj. cbn [orb]. rewrite !levels_hobj in L.
    destruct (Z.eqb_spec (zlen fs) (zlen gs)) as [E|E]; cbn [andb]; [|reflexivity].
    apply in_step_all2; [unfold zlen in E; lia|]. intros a c I J.
    pose proof (hfield_levels _ _ I). pose proof (hfield_levels _ _ J).
    pose proof (levels_pos (erase (snd a))). pose proof (levels_pos (erase (snd c))).
    unfold key_within. destruct f; [lia|]. cbn [bind].
    destruct ((s =? t) || str_same (fst a) (fst c)); [|reflexivity]. cbn [andb]. apply IH. lia.
  - rewrite hcmp_arr. cbn [orb]. rewrite !levels_harr in L.
    destruct (Z.eqb_spec (zlen vs) (zlen ws)) as [E|E]; cbn [andb]; [|reflexivity].
    apply in_step_all2; [unfold zlen in E; lia|]. intros a c I J.
    pose proof (helem_levels _ _ I). pose proof (helem_levels _ _ J). apply IH. lia.
Qed.
Lemma hcmp_sound f : forall same x y q, hcmp_within f same x y = Ok q -> q = hcmp same x y.
Proof.
  induction f as [|f IH]; intros same x y q E; [discriminate E|].
  destruct same; [destruct x; cbn in E; injection E as <-; reflexivity|].
  destruct x as [s fs|s vs| | | | |], y as [t gs|t ws| | | | |]; try (cbn [hcmp_within] in E; injection E as <-; reflexivity); cbn [hcmp_within] in E.
  - rewrite hcmp_obj. cbn [orb]. destruct (zlen fs =? zlen gs); cbn [andb]; [|injection E as <-; reflexivity].
    eapply in_step_sound; [|exact E]. intros a c p G. cbn beta in G. unfold key_within in G. destruct f; [discriminate G|]. cbn [bind] in G.
    destruct ((s =? t) || str_same (fst a) (fst c)); [apply IH; exact G|injection G as <-; reflexivity].
  - rewrite hcmp_arr. cbn [orb]. destruct (zlen vs =? zlen ws); cbn [andb]; [|injection E as <-; reflexivity].
    eapply in_step_sound; [|exact E]. intros a c p G. apply IH. exact G.
Qed.
Lemma hcmp_tame f : forall same x y, hcmp_within f same x y = Fuel \/ exists q, hcmp_within f same x y = Ok q.
Proof.
  induction f as [|f IH]; intros same x y; [left; reflexivity|]. cbn [hcmp_within]. destruct same; [eauto|].
  destruct x as [s fs|s vs| | | | |], y as [t gs|t ws| | | | |]; eauto.
  - destruct (zlen fs =? zlen gs); [|eauto]. apply in_step_tame. intros a c. unfold key_within. destruct f; [left; reflexivity|]. cbn [bind].
    destruct ((s =? t) || str_same (fst a) (fst c)); eauto.
  - destruct (zlen vs =? zlen ws); [|eauto]. apply in_step_tame. auto.
Qed.
Lemma pair_levels_max fs n : (forall a, In a fs -> (levels (erase (snd a)) <= n)%nat) ->
  (pair_levels (map (fun kv => (fst kv, erase (snd kv))) fs) <= n)%nat.
Proof.
  induction fs as [|a fs IH]; intros H; cbn [map pair_levels]; [lia|].
  pose proof (H a (or_introl eq_refl)). specialize (IH (fun c I => H c (or_intror I))). lia.
Qed.
Lemma elem_levels_max vs n : (forall a, In a vs -> (levels (erase a) <= n)%nat) -> (elem_levels (map erase vs) <= n)%nat.
Proof.
  induction vs as [|a vs IH]; intros H; cbn [map elem_levels]; [lia|].
  pose proof (H a (or_introl eq_refl)). specialize (IH (fun c I => H c (or_intror I))). lia.
Qed.
Lemma apart_field s fs t gs a c : apart (HObj s fs) (HObj t gs) -> In a fs -> In c gs -> (s =? t) = false /\ apart (snd a) (snd c).
Proof.
  intros A I J. split.
  - apply Z.eqb_neq. intros ->. apply (A t); left; reflexivity.
  - intros z K L. apply (A z); right; apply in_flat_map; eauto.
Qed.
Lemma apart_elem s vs t ws a c : apart (HArr s vs) (HArr t ws) -> In a vs -> In c ws -> (s =? t) = false /\ apart a c.
Proof.
  intros A I J. split.
  - apply Z.eqb_neq. intros ->. apply (A t); left; reflexivity.
  - intros z K L. apply (A z); right; apply in_flat_map; eauto.
Qed.
Lemma hcmp_needs f : forall x y, apart x y -> hcmp_within f false x y = Ok true -> (levels (erase x) <= f)%nat.
Proof.
  induction f as [|f IH]; intros x y A E; [discriminate E|].
  destruct x as [s fs|s vs| | | | |], y as [t gs|t ws| | | | |]; try (cbn [erase levels]; lia); try discriminate E; cbn [hcmp_within] in E.
  - destruct (zlen fs =? zlen gs); [|discriminate E]. apply in_step_true in E. destruct E as [_ E].
    rewrite levels_hobj. apply le_n_S, pair_levels_max. intros a I. destruct (E a I) as (c & J & G).
    destruct (apart_field _ _ _ _ _ _ A I J) as [AE AP]. rewrite AE in G. unfold key_within in G. destruct f; [discriminate G|]. cbn [bind] in G.
    destruct (false || str_same (fst a) (fst c)); [|discriminate G]. apply (IH _ _ AP G).
  - destruct (zlen vs =? zlen ws); [|discriminate E]. apply in_step_true in E. destruct E as [_ E].
    rewrite levels_harr. apply le_n_S, elem_levels_max. intros a I. destruct (E a I) as (c & J & G).
    destruct (apart_elem _ _ _ _ _ _ A I J) as [AE AP]. rewrite AE in G. apply (IH _ _ AP G).
Qed.

(** ** Comparing across forms *)
Lemma all_from_more f g n : (forall i, f i <> Fuel -> g i = f i) -> forall i, all_from f i n <> Fuel -> all_from g i n = all_from f i n.
Proof.
  intros H. induction n as [|n IH]; intros i N; [reflexivity|]. cbn [all_from] in *.
  rewrite H; [|intros F; rewrite F in N; cbn [bind] in N; congruence].
  destruct (f i) as [q| | | |]; cbn [bind] in *; try reflexivity. destruct q; [apply IH; assumption|reflexivity].
Qed.
Lemma gstep_more n m l r : (forall p q, gcmp n p q <> Fuel -> gcmp m p q = gcmp n p q) ->
  gstep n l r <> Fuel -> gstep m l r = gstep n l r.
Proof.
  intros IH. unfold gstep. destruct (negb (utype_eqb (p_type l) (p_type r))); [reflexivity|].
  destruct (p_type l); try reflexivity.
  - destruct (p_size l); cbn [bind]; try reflexivity. destruct (p_size r); cbn [bind]; try reflexivity.
    destruct (negb _); [reflexivity|]. apply all_from_more. intros i.
    destruct (p_deref r i); cbn [bind]; try reflexivity. destruct (p_deref_key r i); cbn [bind]; try reflexivity.
    destruct (p_scalar T_string _); cbn [bind]; try reflexivity. destruct (value_strv _); cbn [bind]; try reflexivity.
    destruct (p_get l _); cbn [bind]; try reflexivity. apply IH.
  - destruct (p_size l); cbn [bind]; try reflexivity. destruct (p_size r); cbn [bind]; try reflexivity.
    destruct (negb _); [reflexivity|]. apply all_from_more. intros i.
    destruct (p_get_idx l i); cbn [bind]; try reflexivity. destruct (p_get_idx r i); cbn [bind]; try reflexivity. apply IH.
Qed.
Lemma gcmp_more1 n : forall p q, gcmp n p q <> Fuel -> gcmp (S n) p q = gcmp n p q.
Proof.
  induction n as [|n IH]; intros p q N; [exfalso; apply N; reflexivity|]. rewrite !gcmp_step in *.
  destruct (is_finalized p); apply gstep_more; assumption.
Qed.
Lemma gcmp_more n m p q : (n <= m)%nat -> gcmp n p q <> Fuel -> gcmp m p q = gcmp n p q.
Proof. intros L N. induction L as [|m L IH]; [reflexivity|]. rewrite gcmp_more1; congruence. Qed.

Lemma gstep_enough n
  (IH : forall p q v w, denotes p v -> denotes q w -> (levels v <= n)%nat \/ (levels w <= n)%nat -> exists r, gcmp n p q = Ok r)
  l r v w : denotes l v -> denotes r w -> (levels v <= S n)%nat \/ (levels w <= S n)%nat -> exists c, gstep n l r = Ok c.
Proof.
  intros DL DR L. unfold gstep. rewrite (d_type _ _ DL), (d_type _ _ DR).
  destruct (utype_eqb (vtype v) (vtype w)) eqn:U; cbn [negb]; [|eauto]. apply utype_eqb_eq in U.
  destruct v as [fs|vs|s|z|d|b|], w as [gs|ws|s'|z'|d'|b'|]; try discriminate U; cbn [vtype]; try (eexists; reflexivity);
    try (pose proof (d_scalar _ _ DL eq_refl ltac:(discriminate)) as E1; cbn [vtype] in E1; rewrite E1; cbn [bind];
         pose proof (d_scalar _ _ DR eq_refl ltac:(discriminate)) as E2; cbn [vtype] in E2; rewrite E2; cbn [bind]; eexists; reflexivity).
  - rewrite (d_size _ _ DL), (d_size _ _ DR). cbn [h_size bind]. rewrite !levels_obj in L.
    destruct (Z.eqb_spec (zlen fs) (zlen gs)) as [E|NE]; cbn [negb]; [|eauto].
    match goal with |- exists c, all_from ?f 0 _ = _ => destruct (all_from_spec f (Z.to_nat (zlen gs)) 0) as (c & EC & _) end; [|eauto].
    intros j J. destruct (nth_zlen gs _ j eq_refl J) as [[k x] N]. cbn [Z.add].
    destruct (d_deref r gs j k x DR N) as (px & EX & DX & _). destruct (d_deref_key r gs j k x DR N) as (pk & EK & SK).
    destruct (d_get l fs k DL) as (py & EY & DY & _). rewrite EX, EK. cbn [bind]. rewrite SK. cbn [bind value_strv]. rewrite EY. cbn [bind].
    apply (IH _ _ _ _ DX DY). pose proof (nth_error_In _ _ N) as I. pose proof (pair_levels_in _ _ _ I).
    destruct L as [L|L]; [right|left; lia].
    destruct (lookup k fs) as [y|] eqn:LK.
    + apply lookup_in in LK. pose proof (pair_levels_in _ _ _ LK). lia.
    + cbn [levels]. destruct fs as [|[k0 y0] fs]; [destruct gs; [destruct j; discriminate N|rewrite zlen_cons in E; change (zlen (@nil (str * value))) with 0 in E; pose proof (zlen_nonneg gs); lia]|].
      cbn [pair_levels] in L. pose proof (levels_pos y0). lia.
  - rewrite (d_size _ _ DL), (d_size _ _ DR). cbn [h_size bind]. rewrite !levels_arr in L.
    destruct (Z.eqb_spec (zlen vs) (zlen ws)) as [E|NE]; cbn [negb]; [|eauto].
    match goal with |- exists c, all_from ?f 0 _ = _ => destruct (all_from_spec f (Z.to_nat (zlen vs)) 0) as (c & EC & _) end; [|eauto].
    intros j J. destruct (nth_zlen vs _ j eq_refl J) as [x N]. destruct (nth_zlen ws _ j (eq_sym E) J) as [y N']. cbn [Z.add].
    destruct (d_get_idx l vs j x DL N) as (px & EX & DX & _). destruct (d_get_idx r ws j y DR N') as (py & EY & DY & _).
    rewrite EX. cbn [bind]. rewrite EY. cbn [bind]. apply (IH _ _ _ _ DX DY).
    pose proof (elem_levels_in _ _ (nth_error_In _ _ N)). pose proof (elem_levels_in _ _ (nth_error_In _ _ N')). lia.
Qed.
Lemma gcmp_enough n : forall p q v w, denotes p v -> denotes q w -> (levels v <= n)%nat \/ (levels w <= n)%nat -> exists r, gcmp n p q = Ok r.
Proof.
  induction n as [|n IH]; intros p q v w DP DQ L; [pose proof (levels_pos v); pose proof (levels_pos w); lia|].
  rewrite gcmp_step. destruct (is_finalized p).
  - apply (gstep_enough n IH p q v w DP DQ L).
  - apply (gstep_enough n IH q p w v DQ DP). tauto.
Qed.

Lemma all_from_each f n : forall i, all_from f i n = Ok true -> forall j, (j < n)%nat -> f (i + Z.of_nat j) = Ok true.
Proof.
  induction n as [|n IH]; intros i E j L; [lia|]. cbn [all_from] in E.
  destruct (f i) as [q| | | |] eqn:F; cbn [bind] in E; try discriminate E. destruct q; [|discriminate E].
  destruct j as [|j]; [rewrite Z.add_0_r; assumption|]. specialize (IH _ E j ltac:(lia)).
  replace (i + Z.of_nat (S j)) with (i + 1 + Z.of_nat j) by lia. assumption.
Qed.
Lemma gstep_needs n (IH : forall p q v, denotes p v -> denotes q v -> gcmp n p q = Ok true -> (levels v <= n)%nat)
  l r v : denotes l v -> denotes r v -> gstep n l r = Ok true -> (levels v <= S n)%nat.
Proof.
  intros DL DR E. unfold gstep in E. rewrite (d_type _ _ DL), (d_type _ _ DR) in E.
  destruct (negb _); [discriminate E|].
  destruct v as [fs|vs|s|z|d|b|]; try (cbn [levels]; lia); cbn [vtype] in E.
  - rewrite (d_size _ _ DL), (d_size _ _ DR) in E. cbn [h_size bind] in E. rewrite Z.eqb_refl in E. cbn [negb] in E.
    rewrite levels_obj. apply le_n_S. pose proof (all_from_each _ _ _ E) as A. clear E.
    assert (G : forall k x, In (k, x) fs -> (levels x <= n)%nat).
    { intros k x I. destruct (In_nth_error _ _ I) as [j N].
      assert (J : (j < Z.to_nat (zlen fs))%nat) by (assert ((j < length fs)%nat) by (apply nth_error_Some; congruence); unfold zlen; lia).
      specialize (A j J). cbn [Z.add] in A.
      destruct (d_deref r fs j k x DR N) as (px & EX & DX & _). destruct (d_deref_key r fs j k x DR N) as (pk & EK & SK).
      destruct (d_get l fs k DL) as (py & EY & DY & _). rewrite EX, EK in A. cbn [bind] in A. rewrite SK in A. cbn [bind value_strv] in A.
      rewrite EY in A. cbn [bind] in A. rewrite (sorted_in_lookup fs k x (heap_sorted _ (proj1 DL)) I) in DY. apply (IH _ _ _ DX DY A). }
    clear -G. induction fs as [|[k x] fs IHf]; cbn [pair_levels]; [lia|]. pose proof (G k x (or_introl eq_refl)).
    specialize (IHf (fun a c I => G a c (or_intror I))). lia.
  - rewrite (d_size _ _ DL), (d_size _ _ DR) in E. cbn [h_size bind] in E. rewrite Z.eqb_refl in E. cbn [negb] in E.
    rewrite levels_arr. apply le_n_S. pose proof (all_from_each _ _ _ E) as A. clear E.
    assert (G : forall x, In x vs -> (levels x <= n)%nat).
    { intros x I. destruct (In_nth_error _ _ I) as [j N].
      assert (J : (j < Z.to_nat (zlen vs))%nat) by (assert ((j < length vs)%nat) by (apply nth_error_Some; congruence); unfold zlen; lia).
      specialize (A j J). cbn [Z.add] in A.
      destruct (d_get_idx l vs j x DL N) as (px & EX & DX & _). destruct (d_get_idx r vs j x DR N) as (py & EY & DY & _).
      rewrite EX in A. cbn [bind] in A. rewrite EY in A. cbn [bind] in A. apply (IH _ _ _ DX DY A). }
    clear -G. induction vs as [|x vs IHf]; cbn [elem_levels]; [lia|]. pose proof (G x (or_introl eq_refl)).
    specialize (IHf (fun a I => G a (or_intror I))). lia.
Qed.
Lemma gcmp_needs n : forall p q v, denotes p v -> denotes q v -> gcmp n p q = Ok true -> (levels v <= n)%nat.
Proof.
  induction n as [|n IH]; intros p q v DP DQ E; [discriminate E|]. rewrite gcmp_step in E. destruct (is_finalized p).
  - apply (gstep_needs n IH p q v DP DQ E).
  - apply (gstep_needs n IH q p v DQ DP E).
Qed.
