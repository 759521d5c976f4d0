(** C46: the variadic initializers of the C interface. *)

From Coq Require Import ZArith String List Bool Lia Sorted.
From Coq Require Import ZifyBool ZifyNat ZifyN.
From Verif Require Import Base BaseFacts Keys Wire Spec SpecJson Json JsonFacts SpecAbi Abi AbiRun SpecVa Va VaFacts.
Import Init.Byte.
Import ListNotations.
Open Scope string_scope. Open Scope list_scope. Open Scope Z_scope.

Lemma small_pairs ms : Forall (fun kv => small_integers (snd kv)) ms -> small_integers (JObj ms).
Proof. intros F. apply everyj_obj; [exact I|]. eapply Forall_impl; [|exact F]. intros kv H. split; [exact I|exact H]. Qed.
Lemma small_vals ds : Forall small_integers ds -> small_integers (JArr ds).
Proof. intros F. apply everyj_arr; [exact I|exact F]. Qed.
Lemma fmt_small : (forall f a d, val_fmt f a d -> small_integers d) /\ (forall f a ms, pairs_fmt f a ms -> Forall (fun kv => small_integers (snd kv)) ms) /\
  (forall f a ds, vals_fmt f a ds -> Forall small_integers ds).
Proof. apply fmt_min; intros; try (apply everyj_leaf; exact I); try (apply small_pairs; assumption); try (apply small_vals; assumption); constructor; assumption. Qed.
Lemma open_small : (forall f a d, open_fmt f a d -> small_integers d) /\ (forall f a ms, pairs_open f a ms -> Forall (fun kv => small_integers (snd kv)) ms) /\
  (forall f a ds, vals_open f a ds -> Forall small_integers ds).
Proof.
  destruct fmt_small as [Hv _].
  apply open_min; intros; try (apply small_pairs; assumption); try (apply small_vals; assumption); constructor; eauto.
Qed.
Lemma described_small w f a d : describes w f a d -> small_integers d.
Proof.
  intros [? ? ? H|? ? ? ? H|? ? ? H|? ? ? ? H]; [apply small_pairs|apply small_pairs|apply small_vals|apply small_vals];
    first [first [exact (proj1 (proj2 open_small) _ _ _ H)|exact (proj2 (proj2 open_small) _ _ _ H)]|first [exact (proj1 (proj2 fmt_small) _ _ _ H)|exact (proj2 (proj2 fmt_small) _ _ _ H)]].
Qed.

Lemma described_run w f a d j more : describes w f a d -> zlen f < 2 ^ 63 ->
  exists r, loops (init_va w (f ++ x00 :: j) (a ++ more)) (shortb d) (jval d) r more.
Proof.
  intros D L. destruct closed_all as (_ & Cp & Cv). destruct open_all as (_ & Op & Ov).
  destruct D as [f a ms H|f a ms rest H|f a ds H|f a ds rest H]; unfold init_va, va_fuel; cbn [jval shortb].
  - exists (x00 :: j). apply (Op _ _ _ H); [constructor|rewrite app_length; cbn [List.length]; lia|lia].
  - exists (rest ++ x00 :: j). rewrite zlen_app in L. pose proof (zlen_nonneg (lit "," ++ rest)). rewrite <- app_assoc. change (lit "," ++ rest) with (x2c :: rest). cbn [app].
    apply (Cp _ _ _ H); [constructor|rewrite app_length; cbn [List.length]; lia|lia].
  - exists (x00 :: j). apply (Ov _ _ _ H (va_fuel _) []); unfold va_fuel; [rewrite app_length; cbn [List.length]; lia|rewrite zlen_nil; lia].
  - exists (rest ++ x00 :: j). rewrite zlen_app in L. pose proof (zlen_nonneg (lit "," ++ rest)). rewrite <- app_assoc. change (lit "," ++ rest) with (x2c :: rest). cbn [app].
    apply (Cv _ _ _ H (va_fuel _) []); unfold va_fuel; [rewrite app_length; cbn [List.length]; lia|rewrite zlen_nil; lia].
Qed.

(** A call whose arguments follow its format builds the document it describes; of
    members with the same name the last counts. *)
Theorem c46_builds w rc f a d j more : describes w f a d -> zlen f < 2 ^ 63 -> short_keys d -> counter_of rc <> None ->
  exists v, means d v /\ init_va_err w rc (f ++ x00 :: j) (a ++ more) = Returns no_error (Some v) /\
    init_va_plain w rc (f ++ x00 :: j) (a ++ more) = Ok (v, None).
Proof.
  intros D L S N. exists (jval d). apply shortb_spec in S. split; [apply jval_means; [exact S|eapply described_small; exact D]|].
  destruct (described_run _ _ _ _ j more D L) as (r & R). unfold loops in R. rewrite S in R.
  unfold init_va_plain, init_va_err. destruct (counter_of rc); [|congruence]. rewrite R. split; reflexivity.
Qed.
Print Assumptions c46_builds.

(** If some name in it is too long, the call fails. *)
Theorem c46_long_name w rc f a d j more : describes w f a d -> zlen f < 2 ^ 63 -> ~ short_keys d -> counter_of rc <> None ->
  exists v, init_va_err w rc (f ++ x00 :: j) (a ++ more) = Returns logic_code (Some v).
Proof.
  intros D L S N. destruct (described_run _ _ _ _ j more D L) as (r & R). unfold loops in R.
  destruct (shortb d) eqn:E; [apply shortb_spec in E; contradiction|].
  unfold init_va_err. destruct (counter_of rc); [|congruence]. destruct (init_va w _ _) as [v q]. cbn [snd] in R. subst q. exists v. reflexivity.
Qed.
Print Assumptions c46_long_name.

Lemma before_nul f j h c t : f ++ x00 :: j = h ++ c :: t -> ~ In x00 f -> ~ In x00 h -> c <> x00 -> exists u, f = h ++ c :: u /\ t = u ++ x00 :: j.
Proof.
  revert h. induction f as [|b f IH]; intros h E N M C.
  - destruct h as [|b h]; cbn [app] in E; injection E as E1 E2; [congruence|]. destruct M. left. symmetry. exact E1.
  - destruct h as [|b' h]; cbn [app] in E; injection E as E1 E2.
    + subst. exists f. auto.
    + subst b'. destruct (IH h E2) as (u & -> & ->); [intros J; apply N; right; exact J|intros J; apply M; right; exact J|exact C|]. exists u. auto.
Qed.
Lemma at_nul f j h t : f ++ x00 :: j = h ++ x00 :: t -> ~ In x00 f -> ~ In x00 h -> f = h /\ t = j.
Proof.
  revert h. induction f as [|b f IH]; intros h E N M.
  - destruct h as [|b h]; cbn [app] in E; [injection E as E2; auto|injection E as E1 E2]. destruct M. left. symmetry. exact E1.
  - destruct h as [|b' h]; cbn [app] in E; injection E as E1 E2; [destruct N; left; exact E1|].
    subst b'. destruct (IH h E2) as (-> & ->); [intros J; apply N; right; exact J|intros J; apply M; right; exact J|]. auto.
Qed.

(** What is built without an error is what the format and the arguments say. *)
Theorem c46_only w rc f a j v : init_va_err w rc (f ++ x00 :: j) a = Returns no_error (Some v) ->
  ~ In x00 f -> zlen (f ++ x00 :: j) < 2 ^ 63 -> Forall arg_ok a ->
  exists a1 a2 d, a = a1 ++ a2 /\ describes w f a1 d /\ short_keys d /\ means d v.
Proof.
  intros E N L A. unfold init_va_err in E. destruct (counter_of rc); [|discriminate E].
  destruct (said_all (va_fuel (f ++ x00 :: j))) as (_ & Sp & Sv). destruct w; cbn [init_va] in E.
  - pose proof (Sp [] (f ++ x00 :: j) a (SSorted_nil _) A ltac:(lia)) as H.
    destruct (parse_pairs _ _ _ _) as [v' [[f' a']|e| | |]]; try discriminate E;
      [|injection E as E _; rewrite handle_code in E; destruct (err_code_pos e E)].
    injection E as ->. destruct H as (h & p & ms & -> & -> & S & [[P Q]|(P & Q & j' & ->)]).
    + assert (D : describes As_object f p (JObj ms)).
      { apply before_nul in Q as (u & -> & _); [|exact N|first [exact (proj1 (proj2 no_nul) _ _ _ P)|exact (proj2 (proj2 no_nul) _ _ _ P)]|discriminate]. apply (d_obj_closed h p ms u). exact P. }
      exists p, a', (JObj ms). split; [reflexivity|]. split; [exact D|]. split; [apply shortb_spec; exact S|]. apply (jval_means (JObj ms)); [exact S|eapply described_small; exact D].
    + assert (D : describes As_object f p (JObj ms)).
      { apply at_nul in Q as [-> _]; [|exact N|first [exact (proj1 (proj2 no_nul_open) _ _ _ P)|exact (proj2 (proj2 no_nul_open) _ _ _ P)]]. constructor. exact P. }
      exists p, a', (JObj ms). split; [reflexivity|]. split; [exact D|]. split; [apply shortb_spec; exact S|]. apply (jval_means (JObj ms)); [exact S|eapply described_small; exact D].
  - pose proof (Sv [] (f ++ x00 :: j) a A ltac:(rewrite zlen_nil; lia)) as H.
    destruct (parse_vals _ _ _ _) as [v' [[f' a']|e| | |]]; try discriminate E;
      [|injection E as E _; rewrite handle_code in E; destruct (err_code_pos e E)].
    injection E as ->. destruct H as (h & p & ds & -> & -> & S & [[P Q]|(P & Q & j' & ->)]).
    + assert (D : describes As_array f p (JArr ds)).
      { apply before_nul in Q as (u & -> & _); [|exact N|first [exact (proj1 (proj2 no_nul) _ _ _ P)|exact (proj2 (proj2 no_nul) _ _ _ P)]|discriminate]. apply (d_arr_closed h p ds u). exact P. }
      exists p, a', (JArr ds). split; [reflexivity|]. split; [exact D|]. split; [apply shortb_spec; exact S|]. apply (jval_means (JArr ds)); [exact S|eapply described_small; exact D].
    + assert (D : describes As_array f p (JArr ds)).
      { apply at_nul in Q as [-> _]; [|exact N|first [exact (proj1 (proj2 no_nul_open) _ _ _ P)|exact (proj2 (proj2 no_nul_open) _ _ _ P)]]. constructor. exact P. }
      exists p, a', (JArr ds). split; [reflexivity|]. split; [exact D|]. split; [apply shortb_spec; exact S|]. apply (jval_means (JArr ds)); [exact S|eapply described_small; exact D].
Qed.
Print Assumptions c46_only.

Lemma unknown_inside f j : unknown_before (f ++ x00 :: j) -> ~ In x00 f -> unknown_in f.
Proof.
  intros (h & c & r & E & M & C & U) N. destruct (before_nul _ _ _ _ _ E N M C) as (u & -> & ->). exists h, c, u. split; [reflexivity|].
  destruct U as [U|[-> U]]; [left; exact U|right]. split; [reflexivity|]. intros t. destruct (U (t ++ x00 :: j)) as [U1 U2].
  split; intros ->; [apply U1|apply U2]; reflexivity.
Qed.

(** The whole and the members that precede a failure. *)
Definition prefix_of (w : whole) (f : str) (a : list carg) (d : jdoc) : Prop :=
  exists h r p q, f = h ++ r /\ a = p ++ q /\
    match w, d with
    | As_object, JObj ms => pairs_fmt h p ms
    | As_array, JArr ds => vals_fmt h p ds
    | _, _ => False
    end.

(** A call fails only with the code of logic errors, because of a character without a
    meaning or a name too long; the destination then holds the members before it. *)
Theorem c46_failure w rc f a j z dst : init_va_err w rc (f ++ x00 :: j) a = Returns z dst -> z <> no_error -> counter_of rc <> None ->
  ~ In x00 f -> zlen (f ++ x00 :: j) < 2 ^ 63 -> Forall arg_ok a ->
  z = logic_code /\ (unknown_in f \/ long_key a) /\ exists v d, dst = Some v /\ prefix_of w f a d /\ means d v.
Proof.
  intros E Z C N L A. unfold init_va_err in E. destruct (counter_of rc) as [ct|]; [|congruence].
  destruct (said_all (va_fuel (f ++ x00 :: j))) as (_ & Sp & Sv). destruct w; cbn [init_va] in E.
  - pose proof (Sp [] (f ++ x00 :: j) a (SSorted_nil _) A ltac:(lia)) as H.
    destruct (parse_pairs _ _ _ _) as [v' [[f' a']|e| | |]]; try discriminate E; [injection E as <- _; congruence|].
    injection E as <- <-. destruct H as (-> & W & h & p & ms & f' & a' & Ef & -> & P & S & ->). split; [reflexivity|].
    split; [destruct W as [W|W]; [left; eapply unknown_inside; [exact W|exact N]|right; exact W]|].
    exists (jval (JObj ms)), (JObj ms). split; [reflexivity|]. split; [|apply jval_means; [exact S|apply small_pairs; first [exact (proj1 (proj2 fmt_small) _ _ _ P)|exact (proj2 (proj2 fmt_small) _ _ _ P)]]].
    assert (M : ~ In x00 h) by (first [exact (proj1 (proj2 no_nul) _ _ _ P)|exact (proj2 (proj2 no_nul) _ _ _ P)]).
    destruct f' as [|c t].
    { exfalso. apply M. rewrite app_nil_r in Ef. rewrite <- Ef. apply in_or_app. right. left. reflexivity. }
    destruct (byte_eqb_spec c x00) as [->|C0].
    + apply at_nul in Ef as [-> _]; [|exact N|exact M]. exists h, [], p, a'. split; [rewrite app_nil_r; reflexivity|]. split; [reflexivity|exact P].
    + apply before_nul in Ef as (u & -> & _); [|exact N|exact M|exact C0]. exists h, (c :: u), p, a'. split; [reflexivity|]. split; [reflexivity|exact P].
  - pose proof (Sv [] (f ++ x00 :: j) a A ltac:(rewrite zlen_nil; lia)) as H.
    destruct (parse_vals _ _ _ _) as [v' [[f' a']|e| | |]]; try discriminate E; [injection E as <- _; congruence|].
    injection E as <- <-. destruct H as (-> & W & h & p & ds & f' & a' & Ef & -> & P & S & ->). split; [reflexivity|].
    split; [destruct W as [W|W]; [left; eapply unknown_inside; [exact W|exact N]|right; exact W]|].
    exists (jval (JArr ds)), (JArr ds). split; [reflexivity|]. split; [|apply jval_means; [exact S|apply small_vals; first [exact (proj1 (proj2 fmt_small) _ _ _ P)|exact (proj2 (proj2 fmt_small) _ _ _ P)]]].
    assert (M : ~ In x00 h) by (first [exact (proj1 (proj2 no_nul) _ _ _ P)|exact (proj2 (proj2 no_nul) _ _ _ P)]).
    destruct f' as [|c t].
    { exfalso. apply M. rewrite app_nil_r in Ef. rewrite <- Ef. apply in_or_app. right. left. reflexivity. }
    destruct (byte_eqb_spec c x00) as [->|C0].
    + apply at_nul in Ef as [-> _]; [|exact N|exact M]. exists h, [], p, a'. split; [rewrite app_nil_r; reflexivity|]. split; [reflexivity|exact P].
    + apply before_nul in Ef as (u & -> & _); [|exact N|exact M|exact C0]. exists h, (c :: u), p, a'. split; [reflexivity|]. split; [reflexivity|exact P].
Qed.
Print Assumptions c46_failure.

(** With a counter that is neither of the two, nothing is read, made or lost. *)
Theorem c46_counter w rc f a : rc <> 1 -> rc <> 2 ->
  init_va_err w rc f a = Returns client_code None /\ init_va_plain w rc f a = Ok (VNull, None).
Proof.
  intros N1 N2. assert (C : counter_of rc = None).
  { unfold counter_of. destruct (Z.eqb_spec rc 1); [contradiction|]. destruct (Z.eqb_spec rc 2); [contradiction|reflexivity]. }
  unfold init_va_plain, init_va_err. rewrite C. split; reflexivity.
Qed.
Print Assumptions c46_counter.

(** Whatever the format and the arguments, the format is never read past its end. *)
Theorem c46_inside w f j a : snd (init_va w (f ++ x00 :: j) a) <> Oob /\ snd (init_va w (f ++ x00 :: j) a) <> Fuel.
Proof.
  destruct (inside_all (va_fuel (f ++ x00 :: j))) as (_ & Ip & Iv).
  assert (J : In x00 (f ++ x00 :: j)) by (apply in_or_app; right; left; reflexivity).
  destruct w; cbn [init_va]; [pose proof (Ip (VObj []) _ a J ltac:(unfold va_fuel; lia)) as H|pose proof (Iv (VArr []) _ a J ltac:(unfold va_fuel; lia)) as H];
    destruct (snd _); cbn in H; try contradiction; split; discriminate.
Qed.
Print Assumptions c46_inside.

(** ** A call: dart_obj_init_va("sass,oidb,sui", "a", "b", "c", "d", "e", "o", "i", 1, ...) *)
Definition z (s : string) : str := lit s ++ [x00].
Definition c46_args : list carg :=
  [G_ptr (z "a"); G_ptr (z "b"); G_ptr (z "c"); G_ptr (z "d"); G_ptr (z "e");
   G_ptr (z "o"); G_ptr (z "i"); G_int (-1); G_ptr (z "d"); G_double 0; G_ptr (z "b"); G_int 2;
   G_ptr (z "a"); G_ptr (z "again"); G_ptr (z "u"); G_uint 4294967295].
Definition c46_doc : jdoc :=
  JObj [(lit "a", JStr (lit "b")); (lit "c", JArr [JStr (lit "d"); JStr (lit "e")]);
        (lit "o", JObj [(lit "i", JInt (-1)); (lit "d", JDec 0); (lit "b", JBool true)]);
        (lit "a", JStr (lit "again")); (lit "u", JInt 4294967295)].
Lemma text_z s : ~ In x00 (lit s) -> text (z s) (lit s).
Proof. intros N. exists []. split; [reflexivity|exact N]. Qed.
Example c46_described : describes As_object (lit "sass,oidb,sui") c46_args c46_doc.
Proof.
  assert (T : forall s, forallb (fun c => negb (byte_eqb c x00)) (lit s) = true -> text (z s) (lit s)).
  { intros s H. apply text_z. intros J. rewrite forallb_forall in H. specialize (H _ J). discriminate H. }
  constructor.
  apply (op_cons (z "a") (lit "a") (lit "s") [G_ptr (z "b")]); [apply T; reflexivity|constructor; apply T; reflexivity|].
  apply (op_cons (z "c") (lit "c") (lit "ass,") [G_ptr (z "d"); G_ptr (z "e")]); [apply T; reflexivity| |].
  { apply (f_arr (lit "ss")). apply (fv_cons (lit "s") [G_ptr (z "d")]); [constructor; apply T; reflexivity|].
    apply (fv_cons (lit "s") [G_ptr (z "e")] _ [] []); [constructor; apply T; reflexivity|constructor]. }
  apply (op_cons (z "o") (lit "o") (lit "oidb,") [G_ptr (z "i"); G_int (-1); G_ptr (z "d"); G_double 0; G_ptr (z "b"); G_int 2]); [apply T; reflexivity| |].
  { apply (f_obj (lit "idb")). apply (fp_cons (z "i") (lit "i") (lit "i") [G_int (-1)]); [apply T; reflexivity|constructor; constructor|].
    apply (fp_cons (z "d") (lit "d") (lit "d") [G_double 0]); [apply T; reflexivity|constructor; constructor|].
    apply (fp_cons (z "b") (lit "b") (lit "b") [G_int 2] (JBool true) [] []); [apply T; reflexivity|apply (f_bool _ 2); constructor|constructor]. }
  apply (op_cons (z "a") (lit "a") (lit "s") [G_ptr (z "again")]); [apply T; reflexivity|constructor; apply T; reflexivity|].
  apply (op_cons (z "u") (lit "u") (lit "ui") [G_uint 4294967295] _ [] []); [apply T; reflexivity|constructor; constructor|constructor].
Qed.
Example c46_call : init_va_err As_object 1 (z "sass,oidb,sui") c46_args =
  Returns 0 (Some (VObj [(lit "a", VStr (lit "again")); (lit "c", VArr [VStr (lit "d"); VStr (lit "e")]);
                         (lit "o", VObj [(lit "b", VBool true); (lit "d", VDec 0); (lit "i", VInt (-1))]); (lit "u", VInt 4294967295)])).
Proof. vm_compute. reflexivity. Qed.

(** ** What does not hold *)

(** abi.h:570-572: "ul" takes an unsigned long.  Half of them come out negative; and
    the code reads an unsigned long long, as which an unsigned long must not be read.
    The same for "l" (abi.h:576-578), documented as signed long. *)
Theorem c46_long_refuted :
  init_va_err As_array 1 (z "ul") [G_ullong (2 ^ 63)] = Returns 0 (Some (VArr [VInt (- 2 ^ 63)])) /\
  init_va_err As_array 1 (z "ul") [G_ulong 1] = Bad /\ init_va_err As_array 1 (z "l") [G_long 1] = Bad.
Proof. repeat split; vm_compute; reflexivity. Qed.
Print Assumptions c46_long_refuted.

(** abi.h:554-559: "o" and "a" do "NOT consume an argument".  Inside an object they
    take the name of the member. *)
Theorem c46_begin_refuted :
  init_va_err As_object 1 (z "a") [] = Bad /\
  init_va_err As_object 1 (z "a") [G_ptr (z "k")] = Returns 0 (Some (VObj [(lit "k", VArr [])])).
Proof. split; vm_compute; reflexivity. Qed.
Print Assumptions c46_begin_refuted.

(** abi.h:589-591: a comma removes a level of nesting "before continuing to consume
    more arguments".  At the outermost level everything after it is ignored. *)
Theorem c46_comma_refuted :
  init_va_err As_array 1 (z "i,i?") [G_int 1; G_int 2] = Returns 0 (Some (VArr [VInt 1])).
Proof. vm_compute. reflexivity. Qed.
Print Assumptions c46_comma_refuted.

(** abi.h:664: on failure the _err forms "will return a null packet".  The destination
    holds what was built so far; the forms that return by value lose that object. *)
Theorem c46_null_refuted :
  init_va_err As_object 1 (z "i?") [G_ptr (z "k"); G_int 1; G_ptr (z "l")] = Returns logic_code (Some (VObj [(lit "k", VInt 1)])) /\
  init_va_plain As_object 1 (z "i?") [G_ptr (z "k"); G_int 1; G_ptr (z "l")] = Ok (VNull, Some (VObj [(lit "k", VInt 1)])).
Proof. split; vm_compute; reflexivity. Qed.
Print Assumptions c46_null_refuted.
