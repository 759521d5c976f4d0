(** The variadic initializers build what their format says, and nothing else. *)

From Coq Require Import ZArith List Bool Lia Sorted String.
From Coq Require Import ZifyBool ZifyNat ZifyN.
From Verif Require Import Base BaseFacts Keys Wire Read Buf HeapOps Spec Lookup Canon HeapFacts SpecJson Json JsonFacts SpecAbi Abi SpecVa Va.
Import Init.Byte.
Import ListNotations.
Open Scope list_scope. Open Scope Z_scope.

Scheme val_fmt_min := Minimality for val_fmt Sort Prop
  with pairs_fmt_min := Minimality for pairs_fmt Sort Prop
  with vals_fmt_min := Minimality for vals_fmt Sort Prop.
Combined Scheme fmt_min from val_fmt_min, pairs_fmt_min, vals_fmt_min.
Scheme open_fmt_min := Minimality for open_fmt Sort Prop
  with pairs_open_min := Minimality for pairs_open Sort Prop
  with vals_open_min := Minimality for vals_open Sort Prop.
Combined Scheme open_min from open_fmt_min, pairs_open_min, vals_open_min.

(** ** Strings *)
Lemma text_found m s : text m s -> c_text m = Ok s.
Proof.
  intros (r & -> & N). induction s as [|c s IH]; cbn [c_text app]; [reflexivity|].
  destruct (byte_eqb_spec c x00) as [->|_]; [destruct N; left; reflexivity|].
  rewrite IH; [reflexivity|]. intros J. apply N. right. exact J.
Qed.
Lemma found_text m s : c_text m = Ok s -> text m s.
Proof.
  revert s. induction m as [|c m IH]; cbn [c_text]; intros s E; [discriminate|].
  destruct (byte_eqb_spec c x00) as [->|N].
  - injection E as <-. exists m. split; [reflexivity|intros []].
  - destruct (c_text m) as [t| | | |]; cbn [bind] in E; try discriminate. injection E as <-.
    destruct (IH t eq_refl) as (r & -> & M). exists r. split; [reflexivity|]. intros [J|J]; [congruence|contradiction].
Qed.
Lemma text_only m : (exists s, c_text m = Ok s) \/ c_text m = Undef.
Proof.
  induction m as [|c m IH]; cbn [c_text]; [right; reflexivity|]. destruct (byte_eqb c x00); [left; eexists; reflexivity|].
  destruct IH as [(s & ->)| ->]; cbn [bind]; [left; eexists; reflexivity|right; reflexivity].
Qed.
Lemma sized_prefix s r : sized (s ++ r) (zlen s) = Ok s.
Proof.
  unfold sized. rewrite zlen_app. pose proof (zlen_nonneg r). replace (zlen s + zlen r <? zlen s) with false by lia.
  replace (Z.to_nat (zlen s)) with (List.length s) by (unfold zlen; lia). rewrite firstn_app, firstn_all, Nat.sub_diag, firstn_O, app_nil_r. reflexivity.
Qed.

(** ** Arguments *)
Lemma va_int_given g z r : given_int g z -> va_int (g :: r) = Ok (z, r).
Proof. intros []; cbn [va_int]; [reflexivity|]. replace (z0 <? 2 ^ 31) with true by lia. reflexivity. Qed.
Lemma va_uint_given g z r : given_uint g z -> va_uint (g :: r) = Ok (z, r).
Proof. intros []; cbn [va_uint]; [reflexivity|]. replace (0 <=? z0) with true by lia. reflexivity. Qed.
Lemma va_llong_given g z r : given_llong g z -> va_llong (g :: r) = Ok (z, r).
Proof. intros []; cbn [va_llong]; [reflexivity|]. replace (z0 <? 2 ^ 63) with true by lia. reflexivity. Qed.
Lemma va_ullong_given g z r : given_ullong g z -> va_ullong (g :: r) = Ok (z, r).
Proof. intros []; cbn [va_ullong]; [reflexivity|]. replace (0 <=? z0) with true by lia. reflexivity. Qed.
Lemma va_size_given g z r : given_size g z -> va_size (g :: r) = Ok (z, r).
Proof. intros []; cbn [va_size]; [reflexivity|]. replace (0 <=? z0) with true by lia. reflexivity. Qed.

Lemma va_ptr_ok a m a' : va_ptr a = Ok (m, a') -> a = G_ptr m :: a'.
Proof. destruct a as [|[] r]; cbn [va_ptr]; try discriminate. congruence. Qed.
Ltac va_cases a := destruct a as [|[] ?]; try discriminate;
  repeat match goal with |- context [if ?b then _ else _] => destruct b eqn:? end; try discriminate;
  intros E; injection E as -> ->; eexists; (split; [reflexivity|]); constructor; lia.
Lemma va_int_ok a z a' : va_int a = Ok (z, a') -> exists g, a = g :: a' /\ given_int g z.
Proof. unfold va_int. va_cases a. Qed.
Lemma va_uint_ok a z a' : va_uint a = Ok (z, a') -> exists g, a = g :: a' /\ given_uint g z.
Proof. unfold va_uint. va_cases a. Qed.
Lemma va_llong_ok a z a' : va_llong a = Ok (z, a') -> exists g, a = g :: a' /\ given_llong g z.
Proof. unfold va_llong. va_cases a. Qed.
Lemma va_ullong_ok a z a' : va_ullong a = Ok (z, a') -> exists g, a = g :: a' /\ given_ullong g z.
Proof. unfold va_ullong. va_cases a. Qed.
Lemma va_size_ok a z a' : va_size a = Ok (z, a') -> exists g, a = g :: a' /\ given_size g z.
Proof. unfold va_size. va_cases a. Qed.
Lemma va_double_ok a d a' : va_double a = Ok (d, a') -> a = G_double d :: a'.
Proof. destruct a as [|[] r]; cbn [va_double]; try discriminate. congruence. Qed.

(** ** What well-formed formats give *)
Definition fields (ms : list (str * jdoc)) : list (str * value) := map (fun kv => (fst kv, jval (snd kv))) ms.
Definition short_pairs (ms : list (str * jdoc)) : bool := forallb (fun kv => (zlen (fst kv) <=? 65535) && shortb (snd kv)) ms.
Definition mutable_object (v : value) : Prop := match v with VObj fs => StronglySorted key_lt (map fst fs) | _ => False end.

Lemma push_any vs x : zlen vs < 2 ^ 64 -> h_push_back (VArr vs) x = Ok (VArr (vs ++ [x])).
Proof.
  intros L. unfold h_push_back. cbn [h_size bind h_insert h_elements]. pose proof (zlen_nonneg vs). rewrite Z.mod_small by lia.
  rewrite Z.ltb_irrefl. cbn [bind]. do 2 f_equal. replace (Z.to_nat (zlen vs)) with (List.length vs) by (unfold zlen; lia).
  clear. induction vs as [|y r IH]; cbn; [reflexivity|]. rewrite IH. reflexivity.
Qed.

Definition starts (f : str) : Prop := match f with [] => False | c :: _ => c <> x00 /\ c <> x2c end.
Lemma val_starts f a d : val_fmt f a d -> starts f.
Proof. intros []; split; discriminate. Qed.
Lemma open_starts f a d : open_fmt f a d -> starts f.
Proof. intros []; split; discriminate. Qed.
Lemma starts_app f r : starts f -> starts (f ++ r).
Proof. destruct f; [intros []|exact (fun h => h)]. Qed.

Definition then_pairs (n : nat) (pkt : value) (k : str) (r : res (value * str * list carg)) : value * res (str * list carg) :=
  match r with
  | Ok (v, f', a') => if zlen k <=? 65535 then parse_pairs n (match pkt with VObj fs => VObj (put k v fs) | _ => pkt end) f' a' else (pkt, Throw invalid_argument)
  | Throw e => (pkt, Throw e)
  | Oob => (pkt, Oob)
  | Undef => (pkt, Undef)
  | Fuel => (pkt, Fuel)
  end.
Lemma pairs_step n fs f m k a : StronglySorted key_lt (map fst fs) -> starts f -> text m k ->
  parse_pairs (S n) (VObj fs) f (G_ptr m :: a) = then_pairs n (VObj fs) k (parse_val n f a).
Proof.
  intros S St T. destruct f as [|c r]; [destruct St|]. destruct St as [N1 N2]. cbn [parse_pairs].
  destruct (byte_eqb_spec c x00); [contradiction|]. destruct (byte_eqb_spec c x2c); [contradiction|].
  cbn [va_ptr bind]. rewrite (text_found _ _ T). cbn [bind].
  destruct (parse_val n (c :: r) a) as [[[v f'] a']| | | |]; cbn [bind then_pairs]; try reflexivity.
  destruct (zlen k <=? 65535) eqn:L.
  - destruct (put_ok k v fs S) as (i & -> & _); [lia|]. reflexivity.
  - rewrite insert_long by lia. reflexivity.
Qed.
Lemma pairs_comma n pkt r a : parse_pairs (S n) pkt (x2c :: r) a = (pkt, Ok (r, a)).
Proof. reflexivity. Qed.
Lemma pairs_nul n pkt r a : parse_pairs (S n) pkt (x00 :: r) a = (pkt, Ok (x00 :: r, a)).
Proof. reflexivity. Qed.
Definition then_vals (n : nat) (pkt : value) (r : res (value * str * list carg)) : value * res (str * list carg) :=
  match r with
  | Ok (v, f', a') => parse_vals n (match pkt with VArr vs => VArr (vs ++ [v]) | _ => pkt end) f' a'
  | Throw e => (pkt, Throw e)
  | Oob => (pkt, Oob)
  | Undef => (pkt, Undef)
  | Fuel => (pkt, Fuel)
  end.
Lemma vals_step n vs f a : zlen vs < 2 ^ 64 -> starts f ->
  parse_vals (S n) (VArr vs) f a = then_vals n (VArr vs) (parse_val n f a).
Proof.
  intros L St. destruct f as [|c r]; [destruct St|]. destruct St as [N1 N2]. cbn [parse_vals].
  destruct (byte_eqb_spec c x00); [contradiction|]. destruct (byte_eqb_spec c x2c); [contradiction|].
  destruct (parse_val n (c :: r) a) as [[[v f'] a']| | | |]; cbn [bind then_vals]; try reflexivity.
  rewrite push_any by assumption. reflexivity.
Qed.
Lemma vals_comma n pkt r a : parse_vals (S n) pkt (x2c :: r) a = (pkt, Ok (r, a)).
Proof. reflexivity. Qed.
Lemma vals_nul n pkt r a : parse_vals (S n) pkt (x00 :: r) a = (pkt, Ok (x00 :: r, a)).
Proof. reflexivity. Qed.

Lemma val_object n r a : parse_val (S n) (x6f :: r) a = let '(v, q) := parse_pairs n (VObj []) r a in '(f', a') <- q ;; Ok (v, f', a').
Proof. reflexivity. Qed.
Lemma val_array n r a : parse_val (S n) (x61 :: r) a = let '(v, q) := parse_vals n (VArr []) r a in '(f', a') <- q ;; Ok (v, f', a').
Proof. reflexivity. Qed.

(** The result of an aggregate: built whole, or a key too long. *)
Definition loops (r : value * res (str * list carg)) (short : bool) (v : value) (f : str) (a : list carg) : Prop :=
  if short then r = (v, Ok (f, a)) else snd r = Throw invalid_argument.
Definition val_ok (d : jdoc) : res (value * str * list carg) -> str -> list carg -> Prop := fun r f a =>
  r = if shortb d then Ok (jval d, f, a) else Throw invalid_argument.

Lemma closed_all :
  (forall f a d, val_fmt f a d -> forall n rest more, (2 * List.length f <= n)%nat -> zlen f < 2 ^ 64 ->
     val_ok d (parse_val n (f ++ rest) (a ++ more)) rest more) /\
  (forall f a ms, pairs_fmt f a ms -> forall n fs rest more, StronglySorted key_lt (map fst fs) -> (2 * List.length f + 1 <= n)%nat -> zlen f < 2 ^ 64 ->
     loops (parse_pairs n (VObj fs) (f ++ x2c :: rest) (a ++ more)) (short_pairs ms) (VObj (put_all (fields ms) fs)) rest more) /\
  (forall f a ds, vals_fmt f a ds -> forall n vs rest more, (2 * List.length f + 1 <= n)%nat -> zlen vs + zlen f < 2 ^ 64 ->
     loops (parse_vals n (VArr vs) (f ++ x2c :: rest) (a ++ more)) (forallb shortb ds) (VArr (vs ++ map jval ds)) rest more).
Proof.
  apply fmt_min; unfold val_ok.
  - intros m s T [|n] rest more N _; [cbn in N; lia|]. cbn -[c_text]. rewrite (text_found _ _ T). reflexivity.
  - intros s r g G [|n] rest more N _; [cbn in N; lia|]. cbn -[va_size sized]. rewrite (va_size_given _ _ _ G). cbn [bind]. rewrite sized_prefix. reflexivity.
  - intros g z G [|n] rest more N _; [cbn in N; lia|]. cbn -[va_int]. rewrite (va_int_given _ _ _ G). reflexivity.
  - intros g z G [|n] rest more N _; [cbn in N; lia|]. cbn -[va_uint]. rewrite (va_uint_given _ _ _ G). reflexivity.
  - intros g z G [|n] rest more N _; [cbn in N; lia|]. cbn -[va_llong]. rewrite (va_llong_given _ _ _ G). reflexivity.
  - intros g z G L [|n] rest more N _; [cbn in N; lia|]. cbn -[va_ullong to_signed]. rewrite (va_ullong_given _ _ _ G). cbn [bind].
    rewrite to_signed_small by lia. reflexivity.
  - intros g z G L [|n] rest more N _; [cbn in N; lia|]. cbn -[va_ullong to_signed Z.sub]. rewrite (va_ullong_given _ _ _ G). cbn [bind].
    rewrite <- to_signed_mod. replace (z mod 2 ^ 64) with ((z - 2 ^ 64) mod 2 ^ 64) by (rewrite <- (Z_mod_plus_full (z - 2 ^ 64) 1); f_equal; lia).
    rewrite to_signed_mod, to_signed_small by lia. reflexivity.
  - intros d [|n] rest more N _; [cbn in N; lia|]. reflexivity.
  - intros g z G [|n] rest more N _; [cbn in N; lia|]. cbn -[va_int Z.eqb]. rewrite (va_int_given _ _ _ G). reflexivity.
  - intros [|n] rest more N _; [cbn in N; lia|]. reflexivity.
  - intros [|n] rest more N _; [cbn in N; lia|]. reflexivity.
  - intros f a ms _ IH [|n] rest more N L; [cbn in N; lia|].
    change (lit "o"%string ++ f ++ lit ","%string) with (x6f :: f ++ [x2c]) in *. cbn [List.length] in N. rewrite app_length in N. rewrite zlen_cons, zlen_app in L. pose proof (zlen_nonneg [x2c]).
    specialize (IH n [] rest more (SSorted_nil _)). cbn [app]. rewrite <- app_assoc. cbn [app].
    rewrite val_object. unfold loops in IH. cbn [shortb jval]. fold (short_pairs ms) (fields ms).
    cbn [List.length] in N. assert (A1 : (2 * List.length f + 1 <= n)%nat) by lia. assert (A2 : zlen f < 2 ^ 64) by lia. specialize (IH A1 A2).
    destruct (short_pairs ms); [rewrite IH; reflexivity|]. destruct (parse_pairs _ _ _ _) as [v r]. cbn [snd] in IH. subst r. reflexivity.
  - intros f a ds _ IH [|n] rest more N L; [cbn in N; lia|].
    change (lit "a"%string ++ f ++ lit ","%string) with (x61 :: f ++ [x2c]) in *. cbn [List.length] in N. rewrite app_length in N. rewrite zlen_cons, zlen_app in L. pose proof (zlen_nonneg [x2c]).
    specialize (IH n [] rest more). cbn [app]. rewrite <- app_assoc. cbn [app].
    rewrite val_array. unfold loops in IH. cbn [shortb jval].
    cbn [List.length] in N. assert (A1 : (2 * List.length f + 1 <= n)%nat) by lia. assert (A2 : zlen (@nil value) + zlen f < 2 ^ 64) by (rewrite zlen_nil; lia). specialize (IH A1 A2).
    destruct (forallb shortb ds); [rewrite IH; reflexivity|]. destruct (parse_vals _ _ _ _) as [v r]. cbn [snd] in IH. subst r. reflexivity.
  - intros [|n] fs rest more S N _; [cbn in N; lia|]. reflexivity.
  - intros m k f a d f' a' ms T V IHv _ IH [|n] fs rest more S N L; [cbn in N; lia|]. rewrite app_length in N. rewrite zlen_app in L.
    pose proof (val_starts _ _ _ V) as St. assert (P : (0 < List.length f)%nat) by (destruct f; [destruct St|cbn; lia]).
    pose proof (zlen_nonneg f). pose proof (zlen_nonneg f').
    rewrite <- app_assoc. cbn [app]. rewrite (pairs_step _ _ _ _ k) by (try apply starts_app; assumption).
    rewrite <- app_assoc, IHv by lia. unfold short_pairs. cbn [forallb fst snd]. fold (short_pairs ms).
    rewrite (andb_comm (zlen k <=? 65535)), <- andb_assoc. destruct (shortb d); [|reflexivity]. cbn [then_pairs andb].
    destruct (zlen k <=? 65535); [|reflexivity]. cbn [andb]. cbn [fields map put_all fold_left fst snd]. fold (fields ms) (put_all (fields ms) (put k (jval d) fs)).
    apply IH; [apply put_sorted; assumption|lia|lia].
  - intros [|n] vs rest more N _; [cbn in N; lia|]. cbn. rewrite app_nil_r. reflexivity.
  - intros f a d f' a' ds V IHv _ IH [|n] vs rest more N L; [cbn in N; lia|]. rewrite app_length in N. rewrite zlen_app in L.
    pose proof (val_starts _ _ _ V) as St. assert (P : (0 < List.length f)%nat) by (destruct f; [destruct St|cbn; lia]).
    pose proof (zlen_nonneg f). pose proof (zlen_nonneg f'). pose proof (zlen_nonneg vs). assert (Zf : 1 <= zlen f) by (unfold zlen; lia).
    rewrite <- app_assoc. rewrite vals_step by (try apply starts_app; assumption || lia).
    rewrite <- app_assoc, IHv by lia. cbn [forallb]. destruct (shortb d); [|reflexivity]. cbn [then_vals andb].
    cbn [map]. replace (vs ++ jval d :: map jval ds) with ((vs ++ [jval d]) ++ map jval ds) by (rewrite <- app_assoc; reflexivity).
    apply IH; [lia|]. rewrite zlen_app. change (zlen [jval d]) with 1. lia.
Qed.

(** The same for what is still open at the end of the string. *)
Lemma open_all :
  (forall f a d, open_fmt f a d -> forall n rest more, (2 * List.length f <= n)%nat -> zlen f < 2 ^ 64 ->
     val_ok d (parse_val n (f ++ x00 :: rest) (a ++ more)) (x00 :: rest) more) /\
  (forall f a ms, pairs_open f a ms -> forall n fs rest more, StronglySorted key_lt (map fst fs) -> (2 * List.length f + 1 <= n)%nat -> zlen f < 2 ^ 64 ->
     loops (parse_pairs n (VObj fs) (f ++ x00 :: rest) (a ++ more)) (short_pairs ms) (VObj (put_all (fields ms) fs)) (x00 :: rest) more) /\
  (forall f a ds, vals_open f a ds -> forall n vs rest more, (2 * List.length f + 1 <= n)%nat -> zlen vs + zlen f < 2 ^ 64 ->
     loops (parse_vals n (VArr vs) (f ++ x00 :: rest) (a ++ more)) (forallb shortb ds) (VArr (vs ++ map jval ds)) (x00 :: rest) more).
Proof.
  destruct closed_all as (Hval & _). unfold val_ok in Hval. apply open_min; unfold val_ok.
  - intros f a ms _ IH [|n] rest more N L; [cbn in N; lia|].
    change (lit "o"%string ++ f) with (x6f :: f) in *. cbn [List.length] in N. rewrite zlen_cons in L.
    specialize (IH n [] rest more (SSorted_nil _)). cbn [app].
    rewrite val_object. unfold loops in IH. cbn [shortb jval]. fold (short_pairs ms) (fields ms).
    assert (A1 : (2 * List.length f + 1 <= n)%nat) by lia. assert (A2 : zlen f < 2 ^ 64) by lia. specialize (IH A1 A2).
    destruct (short_pairs ms); [rewrite IH; reflexivity|]. destruct (parse_pairs _ _ _ _) as [v r]. cbn [snd] in IH. subst r. reflexivity.
  - intros f a ds _ IH [|n] rest more N L; [cbn in N; lia|].
    change (lit "a"%string ++ f) with (x61 :: f) in *. cbn [List.length] in N. rewrite zlen_cons in L.
    specialize (IH n [] rest more). cbn [app].
    rewrite val_array. unfold loops in IH. cbn [shortb jval].
    assert (A1 : (2 * List.length f + 1 <= n)%nat) by lia. assert (A2 : zlen (@nil value) + zlen f < 2 ^ 64) by (rewrite zlen_nil; lia). specialize (IH A1 A2).
    destruct (forallb shortb ds); [rewrite IH; reflexivity|]. destruct (parse_vals _ _ _ _) as [v r]. cbn [snd] in IH. subst r. reflexivity.
  - intros [|n] fs rest more S N _; [cbn in N; lia|]. reflexivity.
  - intros m k f a d f' a' ms T V _ IH [|n] fs rest more S N L; [cbn in N; lia|]. rewrite app_length in N. rewrite zlen_app in L.
    pose proof (val_starts _ _ _ V) as St. assert (P : (0 < List.length f)%nat) by (destruct f; [destruct St|cbn; lia]).
    pose proof (zlen_nonneg f). pose proof (zlen_nonneg f').
    rewrite <- app_assoc. cbn [app]. rewrite (pairs_step _ _ _ _ k) by (try apply starts_app; assumption).
    rewrite <- app_assoc, (Hval _ _ _ V) by lia. unfold short_pairs. cbn [forallb fst snd]. fold (short_pairs ms).
    rewrite (andb_comm (zlen k <=? 65535)), <- andb_assoc. destruct (shortb d); [|reflexivity]. cbn [then_pairs andb].
    destruct (zlen k <=? 65535); [|reflexivity]. cbn [andb]. cbn [fields map put_all fold_left fst snd]. fold (fields ms) (put_all (fields ms) (put k (jval d) fs)).
    apply IH; [apply put_sorted; assumption|lia|lia].
  - intros m k f a d T V IHv [|n] fs rest more S N L; [cbn in N; lia|].
    pose proof (open_starts _ _ _ V) as St. assert (P : (0 < List.length f)%nat) by (destruct f; [destruct St|cbn; lia]).
    cbn [app]. rewrite (pairs_step _ _ _ _ k) by (try apply starts_app; assumption).
    rewrite IHv by lia. unfold short_pairs. cbn [forallb fst snd].
    rewrite (andb_comm (zlen k <=? 65535)), andb_true_r. destruct (shortb d); [|reflexivity]. cbn [then_pairs andb].
    destruct (zlen k <=? 65535); [|reflexivity]. destruct n as [|n]; [lia|]. apply pairs_nul.
  - intros [|n] vs rest more N _; [cbn in N; lia|]. cbn. rewrite app_nil_r. reflexivity.
  - intros f a d f' a' ds V _ IH [|n] vs rest more N L; [cbn in N; lia|]. rewrite app_length in N. rewrite zlen_app in L.
    pose proof (val_starts _ _ _ V) as St. assert (P : (0 < List.length f)%nat) by (destruct f; [destruct St|cbn; lia]).
    pose proof (zlen_nonneg f). pose proof (zlen_nonneg f'). pose proof (zlen_nonneg vs). assert (Zf : 1 <= zlen f) by (unfold zlen; lia).
    rewrite <- app_assoc. rewrite vals_step by (try apply starts_app; assumption || lia).
    rewrite <- app_assoc, (Hval _ _ _ V) by lia. cbn [forallb]. destruct (shortb d); [|reflexivity]. cbn [then_vals andb].
    cbn [map]. replace (vs ++ jval d :: map jval ds) with ((vs ++ [jval d]) ++ map jval ds) by (rewrite <- app_assoc; reflexivity).
    apply IH; [lia|]. rewrite zlen_app. change (zlen [jval d]) with 1. lia.
  - intros f a d V IHv [|n] vs rest more N L; [cbn in N; lia|].
    pose proof (open_starts _ _ _ V) as St. assert (P : (0 < List.length f)%nat) by (destruct f; [destruct St|cbn; lia]).
    pose proof (zlen_nonneg f). pose proof (zlen_nonneg vs). assert (Zf : 1 <= zlen f) by (unfold zlen; lia).
    rewrite vals_step by (try apply starts_app; assumption || lia).
    rewrite IHv by lia. cbn [forallb]. rewrite andb_true_r. destruct (shortb d); [|reflexivity]. cbn [then_vals map].
    destruct n as [|n]; [lia|]. apply vals_nul.
Qed.

(** ** What was built, was said *)
Lemma no_nul :
  (forall f a d, val_fmt f a d -> ~ In x00 f) /\ (forall f a ms, pairs_fmt f a ms -> ~ In x00 f) /\ (forall f a ds, vals_fmt f a ds -> ~ In x00 f).
Proof.
  apply fmt_min; intros; try (vm_compute; intuition discriminate); try (intros []; fail);
    intros J; repeat (apply in_app_or in J; destruct J as [J|J]); try contradiction; revert J; vm_compute; intuition discriminate.
Qed.
Lemma no_nul_open :
  (forall f a d, open_fmt f a d -> ~ In x00 f) /\ (forall f a ms, pairs_open f a ms -> ~ In x00 f) /\ (forall f a ds, vals_open f a ds -> ~ In x00 f).
Proof.
  destruct no_nul as (Hv & _).
  apply open_min; intros; try (vm_compute; intuition discriminate); try (intros []; fail); try assumption;
    intros J; repeat (apply in_app_or in J; destruct J as [J|J]); try contradiction; try (eapply Hv; eassumption); revert J; vm_compute; intuition discriminate.
Qed.

(** A character without a meaning before the end of the string. *)
Definition unknown_before (f : str) : Prop := exists h c r, f = h ++ c :: r /\ ~ In x00 h /\ c <> x00 /\ unknown_at c r.
Lemma unknown_more h f : ~ In x00 h -> unknown_before f -> unknown_before (h ++ f).
Proof.
  intros N (g & c & r & -> & M & C & U). exists (h ++ g), c, r. split; [apply app_assoc|]. split; [|auto].
  intros J. apply in_app_or in J. tauto.
Qed.
Lemma long_more p a : long_key a -> long_key (p ++ a).
Proof. intros (m & k & J & T & L). exists m, k. split; [apply in_or_app; right; exact J|auto]. Qed.
Lemma long_first m k a : text m k -> 65535 < zlen k -> long_key (G_ptr m :: a).
Proof. intros T L. exists m, k. split; [left; reflexivity|auto]. Qed.

Definition said (f : str) (a : list carg) (r : res (value * str * list carg)) : Prop :=
  match r with
  | Ok (v, f', a') => exists h p d, f = h ++ f' /\ a = p ++ a' /\ v = jval d /\ shortb d = true /\
      (val_fmt h p d \/ open_fmt h p d /\ exists j, f' = x00 :: j)
  | Throw e => e = invalid_argument /\ (unknown_before f \/ long_key a)
  | _ => True
  end.
Definition said_pairs (fs : list (str * value)) (f : str) (a : list carg) (q : value * res (str * list carg)) : Prop :=
  match q with
  | (v, Ok (f', a')) => exists h p ms, a = p ++ a' /\ v = VObj (put_all (fields ms) fs) /\ short_pairs ms = true /\
      (pairs_fmt h p ms /\ f = h ++ x2c :: f' \/ pairs_open h p ms /\ f = h ++ f' /\ exists j, f' = x00 :: j)
  | (v, Throw e) => e = invalid_argument /\ (unknown_before f \/ long_key a) /\
      exists h p ms f' a', f = h ++ f' /\ a = p ++ a' /\ pairs_fmt h p ms /\ short_pairs ms = true /\ v = VObj (put_all (fields ms) fs)
  | _ => True
  end.
Definition said_vals (vs : list value) (f : str) (a : list carg) (q : value * res (str * list carg)) : Prop :=
  match q with
  | (v, Ok (f', a')) => exists h p ds, a = p ++ a' /\ v = VArr (vs ++ map jval ds) /\ forallb shortb ds = true /\
      (vals_fmt h p ds /\ f = h ++ x2c :: f' \/ vals_open h p ds /\ f = h ++ f' /\ exists j, f' = x00 :: j)
  | (v, Throw e) => e = invalid_argument /\ (unknown_before f \/ long_key a) /\
      exists h p ds f' a', f = h ++ f' /\ a = p ++ a' /\ vals_fmt h p ds /\ forallb shortb ds = true /\ v = VArr (vs ++ map jval ds)
  | _ => True
  end.

Lemma identified c r : c <> x00 -> c <> x2c ->
  match identify_vararg (c :: r) with
  | Ok (Y_object, f) => c = x6f /\ f = r
  | Ok (Y_array, f) => c = x61 /\ f = r
  | Ok (Y_string, f) => c = x73 /\ f = r
  | Ok (Y_sized, f) => c = x53 /\ f = r
  | Ok (Y_int, f) => c = x69 /\ f = r
  | Ok (Y_long, f) => c = x6c /\ f = r
  | Ok (Y_uint, f) => c = x75 /\ r = x69 :: f
  | Ok (Y_ulong, f) => c = x75 /\ r = x6c :: f
  | Ok (Y_decimal, f) => c = x64 /\ f = r
  | Ok (Y_boolean, f) => c = x62 /\ f = r
  | Ok (Y_null, f) => (c = x20 \/ c = x6e) /\ f = r
  | Ok (Y_invalid, f) => unknown_at c r
  | Oob => r = []
  | _ => False
  end.
Proof.
  intros N0 N1. cbn [identify_vararg].
  destruct (byte_eqb_spec c x6f); [auto|]. destruct (byte_eqb_spec c x61); [auto|]. destruct (byte_eqb_spec c x73); [auto|].
  destruct (byte_eqb_spec c x53); [auto|]. destruct (byte_eqb_spec c x75) as [->|].
  { destruct r as [|b t]; cbn [identify_u]; [reflexivity|]. destruct (byte_eqb_spec b x69) as [->|]; [auto|].
    destruct (byte_eqb_spec b x6c) as [->|]; [auto|]. right. split; [reflexivity|]. intros t'. split; congruence. }
  destruct (byte_eqb_spec c x69); [auto|]. destruct (byte_eqb_spec c x6c); [auto|]. destruct (byte_eqb_spec c x64); [auto|].
  destruct (byte_eqb_spec c x62); [auto|]. destruct (byte_eqb_spec c x20); [cbn [orb]; auto|]. destruct (byte_eqb_spec c x6e); [cbn [orb]; auto|].
  cbn [orb]. left. unfold letters, lit. cbn. intros J.
  repeat (destruct J as [J|J]; [congruence|]). exact J.
Qed.

Lemma said_all n :
  (forall f a, starts f -> Forall arg_ok a -> zlen f < 2 ^ 64 -> said f a (parse_val n f a)) /\
  (forall fs f a, StronglySorted key_lt (map fst fs) -> Forall arg_ok a -> zlen f < 2 ^ 64 -> said_pairs fs f a (parse_pairs n (VObj fs) f a)) /\
  (forall vs f a, Forall arg_ok a -> zlen vs + zlen f < 2 ^ 64 -> said_vals vs f a (parse_vals n (VArr vs) f a)).
Proof.
  induction n as [|n (IHv & IHp & IHa)]; [repeat split; intros; exact I|]. split; [|split].
  - intros [|c r] a St A L; [destruct St|]. destruct St as [N0 N1]. cbn [parse_val].
    pose proof (identified c r N0 N1) as Id. destruct (identify_vararg (c :: r)) as [[t f]| | | |]; cbn [bind]; try exact I; [|destruct Id].
    rewrite zlen_cons in L. destruct t.
    + destruct Id as [-> ->]. pose proof (IHp [] r a (SSorted_nil _) A ltac:(lia)) as H.
      destruct (parse_pairs n (VObj []) r a) as [v [[f' a']|e| | |]]; cbn [bind said said_pairs] in *; try exact I.
      * destruct H as (h & p & ms & -> & -> & S & [[P ->]|(P & -> & J)]).
        -- exists (lit "o"%string ++ h ++ lit ","%string), p, (JObj ms). split; [change (lit "o"%string) with [x6f]; change (lit ","%string) with [x2c]; cbn [app]; rewrite <- app_assoc; reflexivity|].
           split; [reflexivity|]. split; [reflexivity|]. split; [exact S|]. left. constructor. exact P.
        -- exists (lit "o"%string ++ h), p, (JObj ms). split; [reflexivity|]. split; [reflexivity|]. split; [reflexivity|]. split; [exact S|]. right. split; [|exact J]. constructor. exact P.
      * destruct H as (-> & [U|K] & _); split; try reflexivity; [left|right; exact K]. apply (unknown_more [x6f]); [intros [X|[]]; discriminate X|exact U].
    + destruct Id as [-> ->]. pose proof (IHa [] r a A ltac:(rewrite zlen_nil; lia)) as H.
      destruct (parse_vals n (VArr []) r a) as [v [[f' a']|e| | |]]; cbn [bind said said_vals] in *; try exact I.
      * destruct H as (h & p & ds & -> & -> & S & [[P ->]|(P & -> & J)]).
        -- exists (lit "a"%string ++ h ++ lit ","%string), p, (JArr ds). split; [change (lit "a"%string) with [x61]; change (lit ","%string) with [x2c]; cbn [app]; rewrite <- app_assoc; reflexivity|].
           split; [reflexivity|]. split; [reflexivity|]. split; [exact S|]. left. constructor. exact P.
        -- exists (lit "a"%string ++ h), p, (JArr ds). split; [reflexivity|]. split; [reflexivity|]. split; [reflexivity|]. split; [exact S|]. right. split; [|exact J]. constructor. exact P.
      * destruct H as (-> & [U|K] & _); split; try reflexivity; [left|right; exact K]. apply (unknown_more [x61]); [intros [X|[]]; discriminate X|exact U].
    + destruct Id as [-> ->]. destruct (va_ptr a) as [[m a']| | | |] eqn:E; cbn [bind]; try exact I; [|destruct a as [|[] ?]; discriminate E].
      apply va_ptr_ok in E as ->. destruct (text_only m) as [(s & T)|T]; rewrite T; [|exact I]. cbn [bind said].
      exists (lit "s"%string), [G_ptr m], (JStr s). repeat (split; [reflexivity|]). left. constructor. apply found_text. exact T.
    + destruct Id as [-> ->]. destruct (va_ptr a) as [[m a1]| | | |] eqn:E; cbn [bind]; try exact I; [|destruct a as [|[] ?]; discriminate E].
      apply va_ptr_ok in E as ->. destruct (va_size a1) as [[z a']| | | |] eqn:E; cbn [bind]; try exact I;
        [|destruct a1 as [|[] ?]; cbn [va_size] in E; try discriminate E; destruct (0 <=? z); discriminate E].
      apply va_size_ok in E as (g & -> & G). unfold sized. destruct (zlen m <? z) eqn:Z; [exact I|]. cbn [bind said].
      assert (Z0 : 0 <= z).
      { destruct G; [|assumption]. inversion A as [|? ? _ A2]; subst. inversion A2 as [|? ? A3 _]; subst. cbn in A3. lia. }
      exists (lit "S"%string), [G_ptr m; g], (JStr (firstn (Z.to_nat z) m)). repeat (split; [reflexivity|]). left.
      replace (G_ptr m) with (G_ptr (firstn (Z.to_nat z) m ++ skipn (Z.to_nat z) m)) by (rewrite firstn_skipn; reflexivity). constructor.
      replace (zlen (firstn (Z.to_nat z) m)) with z; [exact G|]. unfold zlen in *. rewrite firstn_length. lia.
    + destruct Id as [-> ->]. destruct (va_int a) as [[z a']|e| | |] eqn:E; cbn [bind]; try exact I;
        [|destruct a as [|[] ?]; cbn [va_int] in E; try discriminate E; destruct (z <? 2 ^ 31); discriminate E].
      apply va_int_ok in E as (g & -> & G). exists (lit "i"%string), [g], (JInt z). repeat (split; [reflexivity|]). left. constructor. exact G.
    + destruct Id as [-> ->]. destruct (va_uint a) as [[z a']|e| | |] eqn:E; cbn [bind]; try exact I;
        [|destruct a as [|[] ?]; cbn [va_uint] in E; try discriminate E; destruct (0 <=? z); discriminate E].
      apply va_uint_ok in E as (g & -> & G). exists (lit "ui"%string), [g], (JInt z). repeat (split; [reflexivity|]). left. constructor. exact G.
    + destruct Id as [-> ->]. destruct (va_llong a) as [[z a']|e| | |] eqn:E; cbn [bind]; try exact I;
        [|destruct a as [|[] ?]; cbn [va_llong] in E; try discriminate E; destruct (z <? 2 ^ 63); discriminate E].
      apply va_llong_ok in E as (g & -> & G). exists (lit "l"%string), [g], (JInt z). repeat (split; [reflexivity|]). left. constructor. exact G.
    + destruct Id as [-> ->]. destruct (va_ullong a) as [[z a']|e| | |] eqn:E; cbn [bind]; try exact I;
        [|destruct a as [|[] ?]; cbn [va_ullong] in E; try discriminate E; destruct (0 <=? z); discriminate E].
      apply va_ullong_ok in E as (g & -> & G).
      assert (R : 0 <= z < 2 ^ 64).
      { inversion A as [|? ? A1 _]; subst. destruct G; cbn [arg_ok] in A1; lia. }
      destruct (Z_lt_ge_dec z (2 ^ 63)) as [S|S].
      * exists (lit "ul"%string), [g], (JInt z). split; [reflexivity|]. split; [reflexivity|]. split; [cbn [jval]; rewrite to_signed_small by lia; reflexivity|].
        split; [reflexivity|]. left. constructor; [exact G|lia].
      * exists (lit "ul"%string), [g], (JInt (z - 2 ^ 64)). split; [reflexivity|]. split; [reflexivity|]. split; [|split; [reflexivity|]; left; constructor; [exact G|lia]].
        cbn [jval]. rewrite <- to_signed_mod. replace (z mod 2 ^ 64) with ((z - 2 ^ 64) mod 2 ^ 64) by (rewrite <- (Z_mod_plus_full (z - 2 ^ 64) 1); f_equal; lia).
        rewrite to_signed_mod, to_signed_small by lia. reflexivity.
    + destruct Id as [-> ->]. destruct (va_double a) as [[z a']|e| | |] eqn:E; cbn [bind]; try exact I; [|destruct a as [|[] ?]; discriminate E].
      apply va_double_ok in E as ->. exists (lit "d"%string), [G_double z], (JDec z). repeat (split; [reflexivity|]). left. constructor.
    + destruct Id as [-> ->]. destruct (va_int a) as [[z a']|e| | |] eqn:E; cbn [bind]; try exact I;
        [|destruct a as [|[] ?]; cbn [va_int] in E; try discriminate E; destruct (z <? 2 ^ 31); discriminate E].
      apply va_int_ok in E as (g & -> & G). exists (lit "b"%string), [g], (JBool (negb (z =? 0))). repeat (split; [reflexivity|]). left. constructor. exact G.
    + destruct Id as [[->| ->] ->]; [exists (lit " "%string), [], JNull|exists (lit "n"%string), [], JNull]; repeat (split; [reflexivity|]); left; constructor.
    + split; [reflexivity|]. left. exists [], c, r. split; [reflexivity|]. split; [intros []|]. auto.
  - intros fs f a S A L. destruct f as [|c r]; [exact I|].
    destruct (byte_eqb_spec c x00) as [->|N0].
    { rewrite pairs_nul. exists [], [], []. split; [reflexivity|]. split; [reflexivity|]. split; [reflexivity|]. right.
      split; [constructor|]. split; [reflexivity|]. exists r. reflexivity. }
    destruct (byte_eqb_spec c x2c) as [->|N1].
    { rewrite pairs_comma. exists [], [], []. split; [reflexivity|]. split; [reflexivity|]. split; [reflexivity|]. left. split; [constructor|reflexivity]. }
    assert (St : starts (c :: r)) by (split; assumption).
    destruct a as [|[m| | | | | | |] a]; try (cbn [parse_pairs]; destruct (byte_eqb_spec c x00); [contradiction|]; destruct (byte_eqb_spec c x2c); [contradiction|]; exact I).
    destruct (text_only m) as [(k & T)|T];
      [|cbn [parse_pairs]; destruct (byte_eqb_spec c x00); [contradiction|]; destruct (byte_eqb_spec c x2c); [contradiction|]; cbn [va_ptr bind]; rewrite T; exact I].
    apply found_text in T. rewrite (pairs_step _ _ _ _ k _ S St T). inversion A as [|? ? A1 A2]; subst.
    pose proof (IHv (c :: r) a St A2 L) as H. destruct (parse_val n (c :: r) a) as [[[v f'] a']|e| | |]; cbn [then_pairs]; try exact I.
    + destruct H as (h & p & d & Ef & -> & -> & Sh & H). rewrite Ef in *. destruct (zlen k <=? 65535) eqn:K.
      * apply Forall_app in A2 as [_ A2]. rewrite zlen_app in L. pose proof (zlen_nonneg h).
        pose proof (IHp (put k (jval d) fs) f' a' (put_sorted _ _ _ S) A2 ltac:(lia)) as Q.
        destruct H as [V|(V & j & ->)].
        -- destruct (parse_pairs n (VObj (put k (jval d) fs)) f' a') as [w [[f2 a2]|e| | |]]; cbn [said_pairs] in *; try exact I.
           ++ destruct Q as (h2 & p2 & ms & -> & -> & S2 & [[P ->]|(P & -> & J)]).
              ** exists (h ++ h2), (G_ptr m :: p ++ p2), ((k, d) :: ms). split; [cbn [app]; rewrite app_assoc; reflexivity|]. split; [reflexivity|].
                 split; [cbn [short_pairs forallb fst snd]; rewrite K, Sh; exact S2|]. left. split; [constructor; assumption|apply app_assoc].
              ** exists (h ++ h2), (G_ptr m :: p ++ p2), ((k, d) :: ms). split; [cbn [app]; rewrite app_assoc; reflexivity|]. split; [reflexivity|].
                 split; [cbn [short_pairs forallb fst snd]; rewrite K, Sh; exact S2|]. right. split; [constructor; assumption|]. split; [apply app_assoc|exact J].
           ++ destruct Q as (-> & W & h2 & p2 & ms & f3 & a3 & -> & -> & P & S2 & ->). split; [reflexivity|]. split.
              ** destruct W as [W|W]; [left; apply unknown_more; [exact (proj1 no_nul _ _ _ V)|exact W]|right]. apply (long_more (G_ptr m :: p)). exact W.
              ** exists (h ++ h2), (G_ptr m :: p ++ p2), ((k, d) :: ms), f3, a3. split; [apply app_assoc|]. split; [cbn [app]; rewrite app_assoc; reflexivity|].
                 split; [constructor; assumption|]. split; [cbn [short_pairs forallb fst snd]; rewrite K, Sh; exact S2|reflexivity].
        -- destruct n as [|n']; [exact I|]. rewrite pairs_nul. exists h, (G_ptr m :: p), [(k, d)]. split; [reflexivity|]. split; [reflexivity|].
           split; [cbn [short_pairs forallb fst snd]; rewrite K, Sh; reflexivity|]. right. split; [constructor; assumption|]. split; [reflexivity|]. exists j. reflexivity.
      * split; [reflexivity|]. split; [right; apply (long_first m k); [exact T|lia]|]. exists [], [], [], (h ++ f'), (G_ptr m :: p ++ a').
        split; [reflexivity|]. split; [reflexivity|]. split; [constructor|]. split; reflexivity.
    + destruct H as [-> W]. split; [reflexivity|]. split; [destruct W as [W|W]; [left; exact W|right; apply (long_more [G_ptr m]); exact W]|].
      exists [], [], [], (c :: r), (G_ptr m :: a). split; [reflexivity|]. split; [reflexivity|]. split; [constructor|]. split; reflexivity.
  - intros vs f a A L. destruct f as [|c r]; [exact I|].
    destruct (byte_eqb_spec c x00) as [->|N0].
    { rewrite vals_nul. exists [], [], []. split; [reflexivity|]. split; [rewrite app_nil_r; reflexivity|]. split; [reflexivity|]. right.
      split; [constructor|]. split; [reflexivity|]. exists r. reflexivity. }
    destruct (byte_eqb_spec c x2c) as [->|N1].
    { rewrite vals_comma. exists [], [], []. split; [reflexivity|]. split; [rewrite app_nil_r; reflexivity|]. split; [reflexivity|]. left. split; [constructor|reflexivity]. }
    assert (St : starts (c :: r)) by (split; assumption). pose proof (zlen_nonneg vs). pose proof (zlen_nonneg (c :: r)).
    assert (Lv : zlen vs < 2 ^ 64) by lia. rewrite (vals_step _ _ _ _ Lv St).
    pose proof (IHv (c :: r) a St A ltac:(lia)) as Hs. destruct (parse_val n (c :: r) a) as [[[v f'] a']|e| | |]; cbn [then_vals]; try exact I.
    + destruct Hs as (h & p & d & Ef & -> & -> & Sh & Hs). rewrite Ef in *. 
      apply Forall_app in A as [_ A]. rewrite zlen_app in L.
      assert (Ph : 1 <= zlen h).
      { assert (X : starts h) by (destruct Hs as [V|[V _]]; [eapply val_starts|eapply open_starts]; exact V). destruct h; [destruct X|]. rewrite zlen_cons. pose proof (zlen_nonneg h). lia. }
      pose proof (IHa (vs ++ [jval d]) f' a' A ltac:(rewrite zlen_app; change (zlen [jval d]) with 1; lia)) as Q.
      assert (Ap : forall ds, (vs ++ [jval d]) ++ map jval ds = vs ++ map jval (d :: ds)) by (intros; rewrite <- app_assoc; reflexivity).
      destruct Hs as [V|(V & j & ->)].
      * destruct (parse_vals n (VArr (vs ++ [jval d])) f' a') as [w [[f2 a2]|e| | |]]; cbn [said_vals] in *; try exact I.
        ++ destruct Q as (h2 & p2 & ds & -> & -> & S2 & [[P ->]|(P & -> & J)]); rewrite Ap.
           ** exists (h ++ h2), (p ++ p2), (d :: ds). split; [rewrite app_assoc; reflexivity|]. split; [reflexivity|].
              split; [cbn [forallb]; rewrite Sh; exact S2|]. left. split; [constructor; assumption|apply app_assoc].
           ** exists (h ++ h2), (p ++ p2), (d :: ds). split; [rewrite app_assoc; reflexivity|]. split; [reflexivity|].
              split; [cbn [forallb]; rewrite Sh; exact S2|]. right. split; [constructor; assumption|]. split; [apply app_assoc|exact J].
        ++ destruct Q as (-> & W & h2 & p2 & ds & f3 & a3 & -> & -> & P & S2 & ->). rewrite Ap. split; [reflexivity|]. split.
           ** destruct W as [W|W]; [left; apply unknown_more; [exact (proj1 no_nul _ _ _ V)|exact W]|right]. apply long_more. exact W.
           ** exists (h ++ h2), (p ++ p2), (d :: ds), f3, a3. split; [apply app_assoc|]. split; [rewrite app_assoc; reflexivity|].
              split; [constructor; assumption|]. split; [cbn [forallb]; rewrite Sh; exact S2|reflexivity].
      * destruct n as [|n']; [exact I|]. rewrite vals_nul. exists h, p, [d]. split; [reflexivity|]. split; [reflexivity|].
        split; [cbn [forallb]; rewrite Sh; reflexivity|]. right. split; [constructor; assumption|]. split; [reflexivity|]. exists j. reflexivity.
    + destruct Hs as [-> W]. split; [reflexivity|]. split; [exact W|].
      exists [], [], [], (c :: r), a. split; [reflexivity|]. split; [reflexivity|]. split; [constructor|]. split; [reflexivity|]. rewrite app_nil_r. reflexivity.
Qed.

(** ** The format is never read past its end *)
Definition inside (f : str) (r : res (value * str * list carg)) : Prop :=
  match r with
  | Ok (_, f', _) => In x00 f' /\ (List.length f' < List.length f)%nat
  | Oob | Fuel => False
  | _ => True
  end.
Definition inside_loop (f : str) (r : res (str * list carg)) : Prop :=
  match r with
  | Ok (f', _) => In x00 f' /\ (List.length f' <= List.length f)%nat
  | Oob | Fuel => False
  | _ => True
  end.
Lemma insert_quiet v k x : match h_insert v (VStr k) x with Oob | Fuel => False | _ => True end.
Proof.
  cbn [h_insert]. destruct (65535 <? zlen k); [exact I|]. destruct v; try exact I. cbn [h_fields].
  destruct (map_find k fs); exact I.
Qed.
Lemma push_quiet v x : match h_push_back v x with Oob | Fuel => False | _ => True end.
Proof.
  unfold h_push_back. destruct v; cbn [h_size bind h_insert h_elements]; try exact I; try (destruct (_ <? _)); cbn; exact I.
Qed.
Lemma va_quiet a : match va_ptr a with Oob | Fuel => False | _ => True end /\ match va_int a with Oob | Fuel => False | _ => True end /\
  match va_uint a with Oob | Fuel => False | _ => True end /\ match va_llong a with Oob | Fuel => False | _ => True end /\
  match va_ullong a with Oob | Fuel => False | _ => True end /\ match va_size a with Oob | Fuel => False | _ => True end /\
  match va_double a with Oob | Fuel => False | _ => True end.
Proof.
  destruct a as [|[] ?]; cbn [va_ptr va_int va_uint va_llong va_ullong va_size va_double]; repeat match goal with |- context [if ?b then _ else _] => destruct b end; tauto.
Qed.

Lemma inside_all n :
  (forall f a, starts f -> In x00 f -> (2 * List.length f <= n)%nat -> inside f (parse_val n f a)) /\
  (forall v f a, In x00 f -> (2 * List.length f + 1 <= n)%nat -> inside_loop f (snd (parse_pairs n v f a))) /\
  (forall v f a, In x00 f -> (2 * List.length f + 1 <= n)%nat -> inside_loop f (snd (parse_vals n v f a))).
Proof.
  induction n as [|n (IHv & IHp & IHa)].
  { split; [|split]; intros; try lia. destruct f; [destruct H|cbn in *; lia]. }
  split; [|split].
  - intros [|c r] a St J L; [destruct J|]. destruct St as [N0 N1]. destruct J as [J|J]; [congruence|]. cbn [List.length] in L. cbn [parse_val].
    pose proof (identified c r N0 N1) as Id. destruct (identify_vararg (c :: r)) as [[t f]| | | |]; cbn [bind]; try contradiction; [|subst r; destruct J].
    destruct (va_quiet a) as (Qp & Qi & Qu & Ql & Qul & _ & Qd).
    destruct t.
    + destruct Id as [-> ->]. pose proof (IHp (VObj []) r a J ltac:(lia)) as H. destruct (parse_pairs n (VObj []) r a) as [v [[f' a']| | | |]]; cbn [bind snd inside inside_loop] in *; try tauto.
      cbn [List.length]. destruct H. split; [assumption|lia].
    + destruct Id as [-> ->]. pose proof (IHa (VArr []) r a J ltac:(lia)) as H. destruct (parse_vals n (VArr []) r a) as [v [[f' a']| | | |]]; cbn [bind snd inside inside_loop] in *; try tauto.
      cbn [List.length]. destruct H. split; [assumption|lia].
    + destruct Id as [-> ->]. destruct (va_ptr a) as [[m a']| | | |]; cbn [bind]; try exact I; try contradiction.
      destruct (text_only m) as [(s & ->)| ->]; [|exact I]. split; [exact J|cbn; lia].
    + destruct Id as [-> ->]. destruct (va_ptr a) as [[m a1]| | | |]; cbn [bind]; try exact I; try contradiction.
      destruct (va_quiet a1) as (_ & _ & _ & _ & _ & Qs & _). destruct (va_size a1) as [[z a']| | | |]; cbn [bind]; try exact I; try contradiction.
      unfold sized. destruct (zlen m <? z); [exact I|]. split; [exact J|cbn; lia].
    + destruct Id as [-> ->]. destruct (va_int a) as [[m a1]| | | |]; cbn [bind]; try exact I; try contradiction. split; [exact J|cbn; lia].
    + destruct Id as [-> ->]. destruct J as [J|J]; [discriminate J|]. destruct (va_uint a) as [[m a1]| | | |]; cbn [bind]; try exact I; try contradiction. split; [exact J|cbn; lia].
    + destruct Id as [-> ->]. destruct (va_llong a) as [[m a1]| | | |]; cbn [bind]; try exact I; try contradiction. split; [exact J|cbn; lia].
    + destruct Id as [-> ->]. destruct J as [J|J]; [discriminate J|]. destruct (va_ullong a) as [[m a1]| | | |]; cbn [bind]; try exact I; try contradiction. split; [exact J|cbn; lia].
    + destruct Id as [-> ->]. destruct (va_double a) as [[m a1]| | | |]; cbn [bind]; try exact I; try contradiction. split; [exact J|cbn; lia].
    + destruct Id as [-> ->]. destruct (va_int a) as [[m a1]| | | |]; cbn [bind]; try exact I; try contradiction. split; [exact J|cbn; lia].
    + destruct Id as [_ ->]. split; [exact J|cbn; lia].
    + exact I.
  - intros v f a J L. destruct f as [|c r]; [destruct J|]. cbn [parse_pairs].
    destruct (byte_eqb_spec c x00) as [->|N0]; [split; [exact J|lia]|].
    destruct (byte_eqb_spec c x2c) as [->|N1]; [destruct J as [J|J]; [discriminate J|]; split; [exact J|cbn; lia]|].
    destruct (va_quiet a) as (Qp & _). destruct (va_ptr a) as [[m a1]| | | |]; cbn [bind]; try exact I; try contradiction.
    destruct (text_only m) as [(k & ->)| ->]; [|exact I]. cbn [bind].
    pose proof (IHv (c :: r) a1 (conj N0 N1) J ltac:(lia)) as H. destruct (parse_val n (c :: r) a1) as [[[w f'] a']| | | |]; cbn [bind inside] in *; try exact I; try contradiction.
    pose proof (insert_quiet v k w) as Q. destruct (h_insert v (VStr k) w) as [[v' i]| | | |]; cbn [bind]; try exact I; try contradiction.
    destruct H as [J' L']. pose proof (IHp v' f' a' J' ltac:(lia)) as P. unfold inside_loop in *.
    destruct (snd (parse_pairs n v' f' a')) as [[f2 a2]| | | |]; try exact P. split; [apply P|]. destruct P. lia.
  - intros v f a J L. destruct f as [|c r]; [destruct J|]. cbn [parse_vals].
    destruct (byte_eqb_spec c x00) as [->|N0]; [split; [exact J|lia]|].
    destruct (byte_eqb_spec c x2c) as [->|N1]; [destruct J as [J|J]; [discriminate J|]; split; [exact J|cbn; lia]|].
    pose proof (IHv (c :: r) a (conj N0 N1) J ltac:(lia)) as H. destruct (parse_val n (c :: r) a) as [[[w f'] a']| | | |]; cbn [bind inside] in *; try exact I; try contradiction.
    pose proof (push_quiet v w) as Q. destruct (h_push_back v w) as [v'| | | |]; cbn [bind]; try exact I; try contradiction.
    destruct H as [J' L']. pose proof (IHa v' f' a' J' ltac:(lia)) as P. unfold inside_loop in *.
    destruct (snd (parse_vals n v' f' a')) as [[f2 a2]| | | |]; try exact P. split; [apply P|]. destruct P. lia.
Qed.
