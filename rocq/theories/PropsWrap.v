(** C40: the strongly typed wrappers. *)

From Coq Require Import ZArith String List Bool Lia.
From Verif Require Import Base BaseFacts Keys Dec SpecDec Wire Read Spec Buf BufFacts HeapOps SpecOps HeapRun SpecPacket Packet PacketRun
  Ordered SpecConv Conv Float SpecArith Arith SpecJson SpecWrap Wrap WrapFacts WrapTypes WrapRun.
Import ListNotations.
Open Scope string_scope. Open Scope list_scope. Open Scope Z_scope.

(** The program starts with packets only; [lived] is what its own text and the
    answers so far say about the wrappers. *)
Definition after_run (vs : list packet) (cs : list wcall) : pstate_w := fst (w_run ([], vs) cs).
Definition lived (vs : list packet) (cs : list wcall) : lives := track_all [] cs (snd (w_run ([], vs) cs)).

(** A wrapper that was constructed and not moved from since holds a packet of its
    type, whatever the program did.  The packets need not even be valid. *)
Theorem c40_types vs cs i k p : nth_error (fst (after_run vs cs)) i = Some (k, p) -> alive i (lived vs cs) = true ->
  of_kind k (p_type p).
Proof.
  intros N A. pose proof (types_run cs ([], vs) [] (Forall2_nil _)) as T.
  destruct (side_nth_r _ _ _ T i _ N) as ([k' b] & E & _ & F & _). unfold alive, lived in A. rewrite E in A. apply F. exact A.
Qed.
Print Assumptions c40_types.

(** All wrappers the program made are followed, under their own kind; a null
    wrapper always holds null. *)
Theorem c40_followed vs cs i : match nth_error (fst (after_run vs cs)) i, nth_error (lived vs cs) i with
  | Some (k, p), Some (k', _) => k' = k /\ (k = KNull -> p_type p = T_null)
  | None, None => True
  | _, _ => False
  end.
Proof.
  pose proof (types_run cs ([], vs) [] (Forall2_nil _)) as T. unfold after_run, lived.
  destruct (nth_error (fst (fst (w_run ([], vs) cs))) i) as [[k p]|] eqn:N.
  - destruct (side_nth_r _ _ _ T i _ N) as ([k' b] & E & K & _ & Z). cbn [fst snd] in K, Z. unfold alive. rewrite E. auto.
  - rewrite (side_none _ _ _ T i N). exact I.
Qed.
Print Assumptions c40_followed.

(** Making a wrapper of a packet succeeds exactly when the type is right, and keeps
    the packet as it is. *)
Theorem c40_construct k move p :
  (of_kind k (p_type p) -> exists q, fst (w_wrap k move p) = Ok q /\ of_kind k (p_type q) /\ (k <> KNull -> q = p)) /\
  (~ of_kind k (p_type p) -> fst (w_wrap k move p) = Throw type_error) /\
  (move = false -> snd (w_wrap k move p) = p).
Proof.
  pose proof (is_a_spec k p) as A. unfold w_wrap. split; [|split].
  - intros H. rewrite (proj2 A H). destruct k; cbn [fst]; eexists; (split; [reflexivity|split; [exact H || reflexivity|]]);
      intros N; try reflexivity. congruence.
  - intros H. destruct (is_a k p); [tauto|]. destruct k; reflexivity.
  - intros ->. destruct k, (is_a _ p); reflexivity.
Qed.
Print Assumptions c40_construct.

(** Every program follows the machine: each call answers what the packet inside
    would, observers tell the truth and numbers compute as C39 says.  [short] keeps
    the strings under the 4 GiB of C02. *)
Theorem c40_machine vs xs cs : Forall2 stands vs xs -> Forall (wcall_ok to_dart) cs -> short ([], vs) cs ->
  exists t, wsteps run_op to_dart ([], xs) cs (snd (w_run ([], vs) cs)) t /\ mirrors (after_run vs cs) t.
Proof. intros F OK SH. apply wrap_run; auto. split; [constructor|exact F]. Qed.
Print Assumptions c40_machine.

Lemma noexcept_quiet k c x b x' : of_kind k (vtype (fst x)) -> has_member k c = true -> is_noexcept c = true ->
  pstep run_op x c b x' -> is_error b = false.
Proof.
  intros K H N P. destruct x as [v fin]. cbn [fst] in K. destruct c as [o| | | |t|t d|path sep|n| |key|n]; try discriminate; cbn [pstep] in P.
  - destruct o; try discriminate; destruct k; try discriminate;
      (destruct v; cbn [of_kind vtype] in K; try discriminate);
      destruct fin; destruct P as [-> P]; cbn [mutates depends_on_form run_op snd answered] in P; try rewrite (P eq_refl); try rewrite P; reflexivity.
  - destruct P as [_ ->]. reflexivity.
  - destruct P as [_ ->]. reflexivity.
  - destruct P as [_ ->]. destruct k; try discriminate; destruct v; cbn [of_kind vtype] in K; try discriminate; reflexivity.
  - destruct P as [_ ->]. destruct k; try discriminate; destruct v; cbn [of_kind vtype] in K; try discriminate;
      try (destruct K; discriminate); destruct t; try discriminate; reflexivity.
Qed.

(** The wrapper a noexcept call is about. *)
Definition subject (c : wcall) : option nat :=
  match c with
  | View i | Member i _ | Ask i _ | Numeric i | Append i _ | Update i _ _ => Some i
  | _ => None
  end.

(** No call on a wrapper ends the program, except when the wrapper was moved from,
    and updating a number that is finalized (C39). *)
Theorem c40_no_terminate vs xs cs c : Forall2 stands vs xs -> Forall (wcall_ok to_dart) (cs ++ [c]) -> short ([], vs) (cs ++ [c]) ->
  snd (w_call (after_run vs cs) c) = W_terminate ->
  exists i, subject c = Some i /\
    (alive i (lived vs cs) = false \/
     exists o n p, c = Update i o n /\ nth_error (fst (after_run vs cs)) i = Some (KNumber, p) /\ is_finalized p = true).
Proof.
  intros F OK SH. apply Forall_app in OK. destruct OK as [OK OKc]. apply Forall_cons_iff in OKc. destruct OKc as [OKc _].
  apply short_app in SH. destruct SH as [SH [SHc _]].
  destruct (c40_machine vs xs cs F OK SH) as (t & _ & M). pose proof (c40_types vs cs) as TY.
  fold (after_run vs cs) in SHc. destruct (wrap_step _ _ c M OKc SHc) as (t' & St & _).
  set (s := after_run vs cs) in *. generalize dependent (snd (w_call s c)). intros a St ->.
  assert (X : forall i k x, nth_error (fst t) i = Some (k, x) -> exists p, nth_error (fst s) i = Some (k, p) /\ stands p x /\
    (alive i (lived vs cs) = true -> of_kind k (vtype (fst x)))).
  { intros i k x N. destruct M as [M _]. destruct (side_nth_r _ _ _ M i _ N) as ([k' p] & E & K & S). cbn [fst snd] in K, S. subst k'.
    exists p. split; [exact E|]. split; [exact S|]. intros A. rewrite <- (stands_type p x S). exact (TY i k p E A). }
  destruct t as [aws avs]. cbn [fst] in X.
  destruct c; cbn [wstep] in St;
    try (destruct (nth_error avs i) as [x|]; [|destruct St; discriminate]);
    try (destruct (nth_error aws i) as [[k' y]|] eqn:N; [destruct (X _ _ _ N) as (p & Np & S & K)|destruct St; discriminate]);
    try (exists i; split; [reflexivity|]; destruct (alive i (lived vs cs)) eqn:AL; [specialize (K eq_refl)|left; reflexivity]);
    try (destruct St as [St _]; discriminate St).
  - destruct St as (b & x' & _ & St & _). discriminate.
  - destruct St as (v & _ & St & _). discriminate.
  - destruct St as [A B]. destruct (of_kind_dec k (vtype (fst x))) as [Y|Y]; [destruct (A Y)|destruct (B Y)]; discriminate.
  - destruct St as [A B]. destruct (of_kind_dec k (vtype (fst x))) as [Y|Y]; [destruct (A Y)|destruct (B Y)]; discriminate.
  - destruct St as [A _]. destruct (A (or_intror K)). discriminate.
  - destruct (kind_eqb k' KNull); [destruct St; discriminate|].
    destruct St as (b & x' & _ & [(_ & St & _)|(e & _ & St & _)]); discriminate.
  - destruct (nth_error aws j) as [[k2 z]|]; [|destruct St; discriminate]. destruct (kind_eqb k' k2); destruct St; discriminate.
  - destruct (nth_error aws j) as [[k2 z]|]; [|destruct St; discriminate]. destruct (kind_eqb k' k2); destruct St; discriminate.
  - destruct (accepts k' t); [|destruct St; discriminate]. destruct (kind_eqb k' KNull); [destruct St; discriminate|].
    destruct (to_dart t x); destruct St; discriminate.
  - destruct (has_member k' c) eqn:HM; [|destruct St; discriminate]. destruct St as (b & x' & P & St & _).
    destruct (is_noexcept c) eqn:NE; [|discriminate]. rewrite (noexcept_quiet k' c y b x' K HM NE P) in St. discriminate.
  - destruct St as [_ St]. specialize (St K). discriminate.
  - destruct k'; cbn [kind_eqb] in St; try (destruct St; discriminate).
    destruct St as [_ [(d & _ & St)|[St _]]]; [discriminate|contradiction].
  - destruct k'; cbn [kind_eqb] in St; try (destruct St; discriminate).
    cbn [of_kind] in K. destruct (fst y); try discriminate. destruct St; discriminate.
  - destruct k'; cbn [kind_eqb] in St; try (destruct St; discriminate).
    destruct y as [v fin]. cbn [fst snd] in *. destruct fin.
    + right. exists o, n, p. split; [reflexivity|]. split; [exact Np|]. destruct S as (_ & _ & S). destruct p; [discriminate S|reflexivity].
    + destruct St as [(d & d' & r & _ & _ & _ & St & _)|[St _]]; [discriminate|contradiction].
  - destruct St as (b & x' & _ & [(_ & St & _)|(e & _ & St & _)]); discriminate.
  - destruct St as (b & x' & _ & [(_ & St & _)|(e & _ & St & _)]); discriminate.
Qed.
Print Assumptions c40_no_terminate.

(** ** Cases *)

(** Wrapping, reading and changing an object; the packet it came from stays. *)
Definition shelf : value := VObj [(lit "n", VInt 7); (lit "xs", VArr [VStr (lit "a")])].
Definition tour : list wcall :=
  [New shelf; Wrap KArray 0; Wrap KObject 0; Member 0 (Do (Get (lit "n"))); Ask 0 Is_object; Ask 0 As_bool;
   Member 0 (Do (Insert (VStr (lit "m")) (VBool true))); Member 0 (Do Size); On 0 (Do Size);
   Member 0 (Finalize 4096); Member 0 (Do (Insert (VStr (lit "k")) VNull)); Rebase 0 None; Member 1 (Do (Erase (VStr (lit "xs"))));
   Make_number (NInt 41); Update 2 Add (NDouble (63 * 2 ^ 56 + 15 * 2 ^ 52)); Numeric 2; Ask 2 Is_decimal;
   Make_string (lit "ab") (lit "c"); Append 3 (lit "d"); Member 3 (Read T_string); Move 3; Ask 3 Is_str; Assign 3 4; Ask 3 Is_str].
Example tour_case : snd (w_run ([], []) tour) =
  [W_made; W_throw type_error; W_made; W_ans (P_ans (A_value (VInt 7))); W_flag true; W_flag true;
   W_ans (P_ans (A_pair (lit "m") (VBool true))); W_ans (P_ans (A_size 3)); W_ans (P_ans (A_size 2));
   W_ans (P_ans A_unit); W_ans (P_ans (A_err state_error)); W_made; W_ans (P_ans A_end);
   W_made; W_done; W_double (64 * 2 ^ 56 + 4 * 2 ^ 52 + 5 * 2 ^ 48); W_flag true;
   W_made; W_done; W_ans (P_ans (A_value (VStr (lit "abcd")))); W_made; W_flag false; W_done; W_flag true] /\
  lived [] tour = [(KObject, true); (KObject, true); (KNumber, true); (KString, true); (KString, true)].
Proof. vm_compute. split; reflexivity. Qed.
Lemma shelf_ok : heap_value shelf /\ good_all shelf.
Proof.
  unfold shelf. split; apply every_obj; try exact I.
  - repeat constructor.
  - apply Forall_cons; [|apply Forall_cons; [|apply Forall_nil]]; cbn [fst snd]; (split; [vm_compute; discriminate|]).
    + apply every_int. cbn [heap_node]. lia.
    + apply every_arr; [exact I|]. apply Forall_cons; [|apply Forall_nil]. apply every_str. vm_compute. reflexivity.
  - apply Forall_cons; [|apply Forall_cons; [|apply Forall_nil]]; cbn [fst snd];
      (split; [split; [vm_compute; intuition discriminate|split; [repeat constructor; vm_compute; reflexivity|vm_compute; discriminate]]|]).
    + apply every_int. exact I.
    + apply every_arr; [exact I|]. apply Forall_cons; [|apply Forall_nil]. apply every_str. exact I.
Qed.
Example tour_ok : Forall (wcall_ok to_dart) tour /\ short ([], []) tour.
Proof.
  split.
  - unfold tour. repeat (apply Forall_cons); try apply Forall_nil; cbn [wcall_ok pcall_ok]; try exact I; try reflexivity.
    + exact shelf_ok.
    + repeat split.
    + split; [exact I|]. split; [split; constructor; vm_compute; auto|]. split; [split; constructor; exact I|].
      split; [vm_compute; intuition discriminate|split; [repeat constructor; vm_compute; reflexivity|vm_compute; discriminate]].
    + repeat split.
    + repeat split.
    + split; [exact I|]. split; [split; constructor; vm_compute; auto|]. split; [split; constructor; exact I|].
      split; [vm_compute; intuition discriminate|split; [repeat constructor; vm_compute; reflexivity|vm_compute; discriminate]].
    + repeat split.
    + vm_compute. split; [discriminate|reflexivity].
  - unfold tour. cbn [short]. repeat (split; [exact I || idtac|]); try exact I.
    intros k p u N P. vm_compute in N. injection N as <- <-. vm_compute in P. injection P as <-. vm_compute. reflexivity.
Qed.

(** What was moved from answers questions as null does, except that objects and arrays
    still are not primitive. *)
Theorem c40_moved_answers k q p fin : stands p (VNull, fin) ->
  w_ask k q p = Ok (match q, k with Is_primitive, (KObject | KArray) => false | _, _ => truth q VNull end).
Proof.
  intros S. assert (T : p_type p = T_null) by exact (stands_type _ _ S).
  unfold w_ask. rewrite T. destruct q, k; reflexivity.
Qed.
Print Assumptions c40_moved_answers.

(** ** Findings *)

(** A wrapper that was moved from holds null: its type says one thing and its packet
    another, and calls that cannot throw end the program. *)
Theorem c40_moved_refuted :
  snd (w_run ([], []) [Make_number (NInt 1); Move 0; Ask 0 Is_numeric; Ask 0 Is_null; Numeric 0]) =
    [W_made; W_made; W_flag false; W_flag true; W_terminate] /\
  snd (w_run ([], []) [Make_string [] []; Move 0; Member 0 (Read T_string)]) = [W_made; W_made; W_terminate] /\
  snd (w_run ([], []) [Make_array; Take 0; View 0]) = [W_made; W_made; W_terminate].
Proof. vm_compute. repeat split. Qed.
Print Assumptions c40_moved_refuted.

(** Only constructing from a packet checks: copies, and wrappers over another base,
    made of a wrapper that was moved from are new wrappers of the wrong type. *)
Theorem c40_copy_refuted :
  snd (w_run ([], []) [Make_object; Move 0; Copy 0; Rebase 0 None; Ask 2 Is_object; Ask 3 Is_object; Member 3 (Do Size)]) =
    [W_made; W_made; W_made; W_made; W_flag false; W_flag false; W_terminate].
Proof. vm_compute. reflexivity. Qed.
Print Assumptions c40_copy_refuted.

(** Through [std::move(w).dynamic().get(key)] a wrapper keeps a child of any type in
    place of its packet, and the observers that are fixed by the static type lie. *)
Theorem c40_dynamic_refuted :
  snd (w_run ([], []) [New shelf; Wrap KObject 0; Take_get 0 (lit "xs"); Member 0 Get_type; Ask 0 Is_array; Ask 0 As_bool]) =
    [W_made; W_made; W_done; W_ans (P_type T_array); W_flag false; W_flag true].
Proof. vm_compute. reflexivity. Qed.
Print Assumptions c40_dynamic_refuted.

(** Wrapping an rvalue of the wrong type as an object or an array throws and loses
    the packet; strings, numbers, flags and nulls leave it alone. *)
Theorem c40_argument_refuted k p : ~ of_kind k (p_type p) ->
  w_wrap k true p = (Throw type_error, match k with KObject | KArray => p_moved p | _ => p end).
Proof.
  intros H. rewrite <- is_a_spec in H. unfold w_wrap. destruct (is_a k p); [congruence|]. destruct k; reflexivity.
Qed.
Print Assumptions c40_argument_refuted.
Example argument_case : w_wrap KObject true (PHeap (VArr [VInt 1])) = (Throw type_error, PHeap VNull) /\
  w_wrap KString true (PHeap (VArr [VInt 1])) = (Throw type_error, PHeap (VArr [VInt 1])).
Proof. split; reflexivity. Qed.

(** A number read from a finalized object is finalized; updating it ends the program. *)
Example finalized_number_case :
  snd (w_run ([], []) [New shelf; On 0 (Finalize 4096); On 0 (Into (lit "n")); Wrap KNumber 0; Numeric 0; Update 0 Add (NInt 1)]) =
    [W_made; W_ans (P_ans A_unit); W_ans (P_ans A_unit); W_made; W_double (64 * 2 ^ 56 + 1 * 2 ^ 52 + 12 * 2 ^ 48); W_terminate].
Proof. vm_compute. reflexivity. Qed.
