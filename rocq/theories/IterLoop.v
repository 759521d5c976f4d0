(** Loops over iterators: the careful one, and the one of the macro. *)

From Coq Require Import ZArith List Bool Lia.
From Verif Require Import Base BaseFacts Keys Wire Read Spec Buf HeapOps SpecOps HeapRun SpecPacket Packet PacketRun
  SpecWrap Wrap WrapTypes WrapFacts WrapRun SpecAbi Abi AbiRun SpecIter Iter IterRun.
Import ListNotations.
Open Scope Z_scope.

(** What the calls answer, given what the body answers for each member. *)
Definition walk_answers (ls : list (list aans)) : list aans :=
  concat (map (fun a => [R_flag false; R_code no_error] ++ a ++ [R_code no_error; R_code no_error]) ls) ++ [R_flag true; R_code no_error].
Fixpoint each_answers (ls : list (list aans)) : list aans :=
  match ls with
  | [] => [R_code runtime_code; R_bad]
  | a :: r => [R_code no_error; R_flag false] ++ a ++ [R_code no_error; R_code no_error] ++ each_answers r
  end.

(** The variables while [x] holds [y]. *)
Definition holding (t : astate) (x : nat) (n : counter) (y : pstate) : astate := put x (FPacket, Some (FPacket, n, y)) t.
Definition looked_at (body : list acall) (t : astate) (x : nat) (n : counter) (y : pstate) (a : list aans) : Prop :=
  asteps run_op (holding t x n y) body a (holding t x n y).

Lemma upset_none l : map (upset []) l = l.
Proof.
  induction l as [|w l IH]; cbn [map]; [reflexivity|]. rewrite IH. f_equal.
  destruct w as [[[n [j|]] a]|]; reflexivity.
Qed.
Lemma looks_touch c : looks c = true -> touches c = [].
Proof. destruct c; intros E; try discriminate E; reflexivity. Qed.
Lemma looks_same m s c a s' : looks c = true -> astep m s c a s' -> s' = s.
Proof. destruct c; intros E H; try discriminate E; exact (proj1 H). Qed.

Lemma body_ok body : forall st t u, iagree st (t, u) -> forallb looks body = true -> careful run_op t body ->
  asteps run_op t body (snd (i_run st (map Plain body))) t /\ iagree (fst (i_run st (map Plain body))) (t, u).
Proof.
  induction body as [|c body IH]; intros st t u M L C; cbn [map i_run].
  - split; [constructor|exact M].
  - cbn [forallb] in L. apply andb_true_iff in L. destruct L as [L Ls]. destruct C as (P & OK & C).
    destruct (iter_step st (t, u) (Plain c) M (conj P OK)) as (t1 & (s1 & St & ->) & M1).
    pose proof (looks_same _ _ _ _ _ L St) as ->. rewrite (looks_touch _ L), upset_none in M1.
    destruct (i_call st (Plain c)) as [st1 a]. cbn [fst snd] in *. destruct (IH st1 t u M1 Ls (C _ _ St)) as [Sts M2].
    destruct (i_run st1 (map Plain body)) as [st2 l]. cbn [fst snd] in *. split; [econstructor; eassumption|exact M2].
Qed.

Lemma i_run_app st a b : i_run st (a ++ b) =
  (fst (i_run (fst (i_run st a)) b), snd (i_run st a) ++ snd (i_run (fst (i_run st a)) b)).
Proof.
  revert st. induction a as [|c a IH]; intros st; cbn [app i_run fst snd].
  - now destruct (i_run st b).
  - destruct (i_call st c) as [st1 r]. rewrite IH. destruct (i_run st1 a) as [st2 l]. reflexivity.
Qed.
Lemma i_run_cons st c r : i_run st (c :: r) =
  (fst (i_run (fst (i_call st c)) r), snd (i_call st c) :: snd (i_run (fst (i_call st c)) r)).
Proof. cbn [i_run]. destruct (i_call st c) as [st1 a]. cbn [fst snd]. now destruct (i_run st1 r). Qed.

(** ** Single steps, whose outcome is known *)

Section Steps.
  Variables (st : ist) (t : astate) (u : list (option walker)) (i : nat) (n : counter) (o : option nat) (l : list pstate).
  Hypothesis M : iagree st (t, u).
  Hypothesis E : nth_error u i = Some (Some (n, o, Ahead l)).

  Lemma step_done : snd (i_call st (It_done i)) = R_flag (match l with [] => true | _ => false end) /\
    iagree (fst (i_call st (It_done i))) (t, u).
  Proof using M E.
    destruct (iter_step st (t, u) (It_done i) M) as (t1 & (n' & o' & l' & E' & A & ->) & M1); [exists n, o, l; exact E|].
    rewrite E in E'. injection E' as <- <- <-. auto.
  Qed.
  Lemma step_get x : nth_error t x = Some (FPacket, None) ->
    snd (i_call st (It_get x i)) = R_code (match l with [] => runtime_code | _ => no_error end) /\
    iagree (fst (i_call st (It_get x i))) (match l with [] => t | y :: _ => holding t x n y end, u).
  Proof using M E.
    intros D. destruct (iter_step st (t, u) (It_get x i) M) as (t1 & (n' & o' & l' & E' & _ & A) & M1); [split; [exists n, o, l; exact E|exact D]|].
    rewrite E in E'. injection E' as <- <- <-. destruct l; destruct A as [A ->]; auto.
  Qed.
  Lemma step_next : snd (i_call st (It_next i)) = R_code no_error /\
    iagree (fst (i_call st (It_next i))) (t, put i (Some (n, o, Ahead (tl l))) u).
  Proof using M E.
    destruct (iter_step st (t, u) (It_next i) M) as (t1 & (n' & o' & l' & E' & A & ->) & M1); [exists n, o, l; exact E|].
    rewrite E in E'. injection E' as <- <- <-. auto.
  Qed.
  Lemma step_end : snd (i_call st (It_destroy i)) = R_code no_error /\
    iagree (fst (i_call st (It_destroy i))) (t, put i None u).
  Proof using M E.
    destruct (iter_step st (t, u) (It_destroy i) M) as (t1 & (x & _ & A & ->) & M1); [eexists; exact E|]. auto.
  Qed.
  Lemma step_not_done x : (exists c, nth_error t x = Some (FPacket, c)) -> l <> [] ->
    snd (i_call st (It_done_destroy i (Some x))) = R_flag false /\
    iagree (fst (i_call st (It_done_destroy i (Some x)))) (t, u).
  Proof using M E.
    intros D NE. destruct (iter_step st (t, u) (It_done_destroy i (Some x)) M) as (t1 & (n' & o' & l' & E' & A) & M1).
    { split; [exists n, o, l; exact E|]. intros y Ey. injection Ey as <-. split; [exact D|]. intros n' o' E'. rewrite E in E'. congruence. }
    rewrite E in E'. injection E' as <- <- <-. destruct l as [|y r]; [contradiction|]. destruct A as [A ->]. auto.
  Qed.
End Steps.

Lemma step_destroy st t u x n y : iagree st (t, u) -> nth_error t x = Some (FPacket, Some (FPacket, n, y)) ->
  snd (i_call st (Plain (Destroy Generic x))) = R_code no_error /\
  iagree (fst (i_call st (Plain (Destroy Generic x)))) (put x (FPacket, None) t, map (upset [x]) u).
Proof.
  intros M E.
  assert (U : usable t Generic x FPacket n y) by (exists FPacket; auto).
  destruct (iter_step st (t, u) (Plain (Destroy Generic x)) M) as (t1 & (s1 & St & ->) & M1).
  { split; [exists FPacket, n, y; exact U|exact I]. }
  destruct St as (ty & d & n' & x' & E' & _ & A & ->). rewrite E in E'. injection E' as <- _ _ _. auto.
Qed.

Lemma held t x n y c : nth_error t x = Some (FPacket, c) -> nth_error (holding t x n y) x = Some (FPacket, Some (FPacket, n, y)).
Proof. intros E. unfold holding. rewrite (put_nth _ _ _ _ _ E), Nat.eqb_refl. reflexivity. Qed.
Lemma put_put {A} (l : list A) i x y : put i x (put i y l) = put i x l.
Proof. revert i. induction l as [|z l IH]; intros [|i]; cbn [put]; try reflexivity. now rewrite IH. Qed.
Lemma released t x n y : nth_error t x = Some (FPacket, None) -> put x (FPacket, None) (holding t x n y) = t.
Proof. intros E. unfold holding. rewrite put_put. exact (put_same _ _ _ E). Qed.
Lemma upset_kept u x i n o a : nth_error u i = Some (Some (n, o, a)) -> o <> Some x ->
  nth_error (map (upset [x]) u) i = Some (Some (n, o, a)).
Proof.
  intros E N. rewrite (map_nth_error (upset [x]) i u E). f_equal. cbn [upset]. destruct o as [j|]; [|reflexivity].
  unfold among. cbn [existsb]. destruct (Nat.eqb_spec j x); [congruence|]. reflexivity.
Qed.

(** ** The careful loop *)

Lemma walk_loop_ok body i x n o t : nth_error t x = Some (FPacket, None) -> o <> Some x -> forallb looks body = true ->
  forall l fuel st u, iagree st (t, u) -> nth_error u i = Some (Some (n, o, Ahead l)) ->
  (forall y, In y l -> careful run_op (holding t x n y) body) -> (length l < fuel)%nat ->
  exists ls u', Forall2 (looked_at body t x n) l ls /\
    snd (walk_loop fuel body st i x) = walk_answers ls /\ iagree (fst (walk_loop fuel body st i x)) (t, u').
Proof.
  intros D NO LB. induction l as [|y l IH]; intros fuel st u M E B L; (destruct fuel as [|fuel]; [cbn in L; lia|]); cbn [walk_loop].
  - destruct (step_done _ _ _ _ _ _ _ M E) as [A M1]. destruct (i_call st (It_done i)) as [st1 a]. cbn [fst snd] in *. subst a.
    destruct (step_end _ _ _ _ _ _ _ M1 E) as [A M2]. destruct (i_call st1 (It_destroy i)) as [st2 a]. cbn [fst snd] in *. subst a.
    exists [], (put i None u). split; [constructor|]. split; [reflexivity|exact M2].
  - destruct (step_done _ _ _ _ _ _ _ M E) as [A M1]. destruct (i_call st (It_done i)) as [st1 a]. cbn [fst snd] in *. subst a.
    rewrite i_run_cons. destruct (step_get _ _ _ _ _ _ _ M1 E x D) as [A M2].
    destruct (i_call st1 (It_get x i)) as [st2 a]. cbn [fst snd] in *. subst a.
    rewrite i_run_app. destruct (body_ok body st2 _ u M2 LB (B y (or_introl eq_refl))) as [Bd M3].
    destruct (i_run st2 (map Plain body)) as [st3 bl]. cbn [fst snd] in *.
    rewrite i_run_cons. destruct (step_destroy _ _ _ x n y M3 (held _ _ _ _ _ D)) as [A M4].
    destruct (i_call st3 (Plain (Destroy Generic x))) as [st4 a]. cbn [fst snd] in *. subst a.
    rewrite (released _ _ _ _ D) in M4. pose proof (upset_kept _ x _ _ _ _ E NO) as E4.
    rewrite i_run_cons. destruct (step_next _ _ _ _ _ _ _ M4 E4) as [A M5].
    destruct (i_call st4 (It_next i)) as [st5 a]. cbn [fst snd tl] in *. subst a.
    assert (E5 : nth_error (put i (Some (n, o, Ahead l)) (map (upset [x]) u)) i = Some (Some (n, o, Ahead l))).
    { rewrite (put_nth _ _ _ _ _ E4), Nat.eqb_refl. reflexivity. }
    cbn [i_run fst snd].
    destruct (IH fuel st5 _ M5 E5 (fun z I => B z (or_intror I)) ltac:(cbn in L; lia)) as (ls & u' & F & A & M6).
    destruct (walk_loop fuel body st5 i x) as [st6 l6]. cbn [fst snd] in *.
    exists (bl :: ls), u'. split; [constructor; [exact Bd|exact F]|]. split; [|exact M6].
    rewrite A. unfold walk_answers. cbn [map concat app]. repeat (rewrite <- app_assoc; cbn [app]). reflexivity.
Qed.

Theorem walk_ok st t w keys body j x d n v l fuel : iagree st (t, w) ->
  usable t Generic j d n v -> children keys v = Some l -> nth_error t x = Some (FPacket, None) ->
  forallb looks body = true -> (forall y, In y l -> careful run_op (holding t x n y) body) -> (length l < fuel)%nat ->
  exists ls w', Forall2 (looked_at body t x n) l ls /\
    snd (walk_all fuel keys body st j x) = [R_done; R_code no_error] ++ walk_answers ls /\
    iagree (fst (walk_all fuel keys body st j x)) (t, w').
Proof.
  intros M U C D LB B L. unfold walk_all.
  assert (Ln : length (snd st) = length w) by exact (side_len _ _ _ (proj2 M)). rewrite Ln.
  rewrite i_run_cons. destruct (iter_step st (t, w) Declare_it M I) as (t1 & (A & ->) & M1).
  destruct (i_call st Declare_it) as [st1 a]. cbn [fst snd] in *. subst a.
  assert (E0 : nth_error (w ++ [None]) (length w) = Some None) by (rewrite nth_error_app2, Nat.sub_diag; [reflexivity|lia]).
  rewrite i_run_cons.
  destruct (iter_step st1 (t, w ++ [None]) (It_from keys (length w) j) M1) as (t2 & (d' & n' & v' & _ & U' & A) & M2).
  { split; [exact E0|exists d, n, v; exact U]. }
  assert (Q : d' = d /\ n' = n /\ v' = v).
  { destruct U as (ty & Et & _), U' as (ty' & Et' & _). rewrite Et in Et'. injection Et' as _ -> -> ->. auto. }
  destruct Q as (-> & -> & ->). rewrite C in A. destruct A as [A ->].
  destruct (i_call st1 (It_from keys (length w) j)) as [st2 a]. cbn [fst snd i_run] in *. subst a.
  set (o := if snd v then None else Some j) in *.
  assert (E2 : nth_error (put (length w) (Some (n, o, Ahead l)) (w ++ [None])) (length w) = Some (Some (n, o, Ahead l))).
  { rewrite (put_nth _ _ _ _ _ E0), Nat.eqb_refl. reflexivity. }
  assert (NO : o <> Some x).
  { unfold o. destruct (snd v); [discriminate|]. intros Q. injection Q as ->. destruct U as (ty & Et & _). congruence. }
  destruct (walk_loop_ok body (length w) x n o t D NO LB l fuel st2 _ M2 E2 B L) as (ls & u' & F & A & M3).
  destruct (walk_loop fuel body st2 (length w) x) as [st3 l3]. cbn [fst snd] in *.
  exists ls, u'. split; [exact F|]. split; [rewrite A; reflexivity|exact M3].
Qed.

(** ** The macro *)

Lemma exhausted st t u i n o x : iagree st (t, u) -> nth_error u i = Some (Some (n, o, Ahead [])) ->
  nth_error (fst st) x = Some (mkvar FPacket (Some (p_id FPacket, n_id n)) None) ->
  snd (i_call st (It_done_destroy i (Some x))) = R_bad.
Proof.
  intros [M F] E N. destruct st as [s w]. cbn [fst snd] in *. unfold i_call. cbn [icompiles]. unfold is_packet.
  rewrite (it_has _ _ _ _ F E), N. cbn [v_type form_eqb andb].
  rewrite (done_ok w u i n o [] s F E). destruct (destroy_ok w u i n o _ s F E) as (w1 & -> & _).
  unfold a_call. cbn [compiles]. unfold arg_ok. rewrite N. cbn [v_type takes]. unfold access, unwrap. rewrite N. cbn [v_tags].
  rewrite tag_switch_id. unfold seen. cbn [v_obj]. reflexivity.
Qed.
Lemma get_tags st t u i n o x : iagree st (t, u) -> nth_error u i = Some (Some (n, o, Ahead [])) ->
  nth_error t x = Some (FPacket, None) ->
  nth_error (fst (fst (i_call st (It_get x i)))) x = Some (mkvar FPacket (Some (p_id FPacket, n_id n)) None).
Proof.
  intros [M F] E D. destruct st as [s w]. cbn [fst snd] in *. unfold i_call. cbn [icompiles].
  rewrite (it_has _ _ _ _ F E), (packet_var _ _ _ _ M D). cbn [andb].
  destruct (it_looked _ _ _ _ _ _ F E) as (d & r & N & R & X).
  unfold it_get. unfold itags_of. rewrite N. cbn [i_tags]. unfold it_access. cbn [snd]. rewrite X, (range_end _ _ _ R).
  cbn [err_handler it_coded fst]. exact (proj2 (tagged s t x _ _ M D)).
Qed.

(** The loop: [x] holds the member the iterator is at, until there is none. *)
Lemma for_loop_ok body i x n o t : nth_error t x = Some (FPacket, None) -> o <> Some x -> forallb looks body = true ->
  forall l fuel st u, iagree st (match l with [] => t | y :: _ => holding t x n y end, u) ->
  nth_error u i = Some (Some (n, o, Ahead l)) ->
  match l with [] => nth_error (fst st) x = Some (mkvar FPacket (Some (p_id FPacket, n_id n)) None) | _ => True end ->
  (forall y, In y l -> careful run_op (holding t x n y) body) -> (length l < fuel)%nat ->
  exists ls, Forall2 (looked_at body t x n) l ls /\
    R_code (match l with [] => runtime_code | _ => no_error end) ::
      snd (for_loop fuel body st i x (match l with [] => runtime_code | _ => no_error end)) = each_answers ls.
Proof.
  intros D NO LB. induction l as [|y l IH]; intros fuel st u M E T B L; (destruct fuel as [|fuel]; [cbn in L; lia|]); cbn [for_loop].
  - pose proof (exhausted _ _ _ _ _ _ _ M E T) as A. destruct (i_call st (It_done_destroy i (Some x))) as [st1 a].
    cbn [fst snd] in A. subst a. exists []. split; [constructor|reflexivity].
  - destruct (step_not_done _ _ _ _ _ _ _ M E x) as [A M1]; [eexists; exact (held _ _ _ _ _ D)|discriminate|].
    destruct (i_call st (It_done_destroy i (Some x))) as [st1 a]. cbn [fst snd] in *. subst a.
    rewrite Z.eqb_refl, i_run_app. destruct (body_ok body st1 _ u M1 LB (B y (or_introl eq_refl))) as [Bd M3].
    destruct (i_run st1 (map Plain body)) as [st3 bl]. cbn [fst snd] in *.
    rewrite i_run_cons. destruct (step_next _ _ _ _ _ _ _ M3 E) as [A M4].
    destruct (i_call st3 (It_next i)) as [st4 a]. cbn [fst snd tl] in *. subst a.
    assert (E4 : nth_error (put i (Some (n, o, Ahead l)) u) i = Some (Some (n, o, Ahead l))).
    { rewrite (put_nth _ _ _ _ _ E), Nat.eqb_refl. reflexivity. }
    rewrite i_run_cons. destruct (step_destroy _ _ _ x n y M4 (held _ _ _ _ _ D)) as [A M5].
    destruct (i_call st4 (Plain (Destroy Generic x))) as [st5 a]. cbn [fst snd] in *. subst a.
    rewrite (released _ _ _ _ D) in M5. pose proof (upset_kept _ x _ _ _ _ E4 NO) as E5.
    rewrite i_run_cons. destruct (step_get _ _ _ _ _ _ _ M5 E5 x D) as [A M6].
    assert (T6 : match l with [] => nth_error (fst (fst (i_call st5 (It_get x i)))) x = Some (mkvar FPacket (Some (p_id FPacket, n_id n)) None) | _ => True end).
    { destruct l; [|exact I]. exact (get_tags _ _ _ _ _ _ _ M5 E5 D). }
    destruct (i_call st5 (It_get x i)) as [st6 a]. cbn [fst snd i_run] in *. subst a.
    destruct (IH fuel st6 _ M6 E5 T6 (fun z I => B z (or_intror I)) ltac:(cbn in L; lia)) as (ls & F & A).
    exists (bl :: ls). split; [constructor; [exact Bd|exact F]|]. cbn [each_answers]. rewrite <- A.
    set (e := match l with [] => runtime_code | _ => no_error end).
    replace (last (bl ++ [R_code no_error; R_code no_error; R_code e]) R_bad) with (R_code e).
    2:{ change [R_code no_error; R_code no_error; R_code e] with ([R_code no_error; R_code no_error] ++ [R_code e]).
        rewrite app_assoc, last_last. reflexivity. }
    destruct (for_loop fuel body st6 i x e) as [st7 l7]. cbn [fst snd app].
    repeat (rewrite <- app_assoc; cbn [app]). reflexivity.
Qed.

Theorem for_each_ok st t w keys body j x d n v fuel : iagree st (t, w) ->
  usable t Generic j d n v -> nth_error t x = Some (FPacket, None) ->
  match children keys v with
  | Some l => forallb looks body = true -> (forall y, In y l -> careful run_op (holding t x n y) body) -> (length l < fuel)%nat ->
      exists ls, Forall2 (looked_at body t x n) l ls /\
        snd (dart_for_each fuel keys body st j x) = [R_done; R_code no_error] ++ each_answers ls
  | None => (0 < fuel)%nat -> snd (dart_for_each fuel keys body st j x) = [R_done; R_code type_code; R_bad]
  end.
Proof.
  intros M U D. unfold dart_for_each.
  assert (Ln : length (snd st) = length w) by exact (side_len _ _ _ (proj2 M)). rewrite Ln.
  rewrite i_run_cons. destruct (iter_step st (t, w) Declare_it M I) as (t1 & (A & ->) & M1).
  destruct (i_call st Declare_it) as [st1 a]. cbn [fst snd] in *. subst a.
  assert (E0 : nth_error (w ++ [None]) (length w) = Some None) by (rewrite nth_error_app2, Nat.sub_diag; [reflexivity|lia]).
  rewrite i_run_cons.
  destruct (iter_step st1 (t, w ++ [None]) (It_from keys (length w) j) M1) as (t2 & (d' & n' & v' & _ & U' & A) & M2).
  { split; [exact E0|exists d, n, v; exact U]. }
  assert (Q : d' = d /\ n' = n /\ v' = v).
  { destruct U as (ty & Et & _), U' as (ty' & Et' & _). rewrite Et in Et'. injection Et' as _ -> -> ->. auto. }
  destruct Q as (-> & -> & ->).
  destruct (children keys v) as [l|] eqn:C.
  - intros LB B L. destruct A as [A ->].
    destruct (i_call st1 (It_from keys (length w) j)) as [st2 a]. cbn [fst snd i_run] in *. subst a.
    set (o := if snd v then None else Some j) in *.
    assert (E2 : nth_error (put (length w) (Some (n, o, Ahead l)) (w ++ [None])) (length w) = Some (Some (n, o, Ahead l))).
    { rewrite (put_nth _ _ _ _ _ E0), Nat.eqb_refl. reflexivity. }
    assert (NO : o <> Some x).
    { unfold o. destruct (snd v); [discriminate|]. intros Q. injection Q as ->. destruct U as (ty & Et & _). congruence. }
    cbn [last]. change no_error with 0 at 1. cbv beta iota.
    destruct (step_get _ _ _ _ _ _ _ M2 E2 x D) as [A M3].
    assert (T3 : match l with [] => nth_error (fst (fst (i_call st2 (It_get x (length w))))) x = Some (mkvar FPacket (Some (p_id FPacket, n_id n)) None) | _ => True end).
    { destruct l; [|exact I]. exact (get_tags _ _ _ _ _ _ _ M2 E2 D). }
    destruct (i_call st2 (It_get x (length w))) as [st3 a]. cbn [fst snd] in *. subst a.
    destruct (for_loop_ok body (length w) x n o t D NO LB l fuel st3 _ M3 E2 T3 B L) as (ls & F & A).
    exists ls. split; [exact F|]. rewrite <- A. destruct (for_loop _ _ _ _ _ _) as [st4 l4]. reflexivity.
  - intros L. destruct A as [A ->].
    assert (N : nth_error (snd (fst (i_call st1 (It_from keys (length w) j)))) (length w) = Some (mkivar (Some (p_id d, n_id n)) None)).
    { clear M2 A. destruct M1 as [Ms Mw]. destruct st1 as [s1 w1]. cbn [fst snd] in *. unfold i_call. cbn [icompiles].
      destruct (looked _ _ _ _ _ _ _ Ms U) as (ty & p & Et & Es & S & Sh & A & _ & X).
      rewrite (it_has _ _ _ _ Mw E0), A. cbn [andb]. unfold it_from. unfold tags_of. rewrite Es. cbn [v_tags].
      destruct (it_dead w1 _ (length w) (Some (p_id d, n_id n)) Mw E0) as [F1 D1]. rewrite X.
      rewrite (constructed _ _ d n _ D1), (begun keys p v S), C. cbn [bind err_handler handle it_coded fst snd]. exact D1. }
    destruct (i_call st1 (It_from keys (length w) j)) as [st2 a]. cbn [fst snd i_run] in *. subst a.
    cbn [last]. change type_code with 1 at 1. cbv beta iota.
    assert (A : snd (i_call st2 (It_done_destroy (length w) (Some x))) = R_bad).
    { destruct M2 as [Ms Mw]. destruct st2 as [s2 w2]. cbn [fst snd] in *. unfold i_call. cbn [icompiles].
      rewrite (it_has _ _ _ _ Mw E0), (packet_var _ _ _ _ Ms D). cbn [andb]. unfold it_done, it_unwrap. cbn [snd].
      rewrite N. cbn [i_tags i_obj]. rewrite tag_switch_id. reflexivity. }
    destruct fuel as [|fuel]; [lia|]. cbn [for_loop]. destruct (i_call st2 (It_done_destroy (length w) (Some x))) as [st3 a].
    cbn [snd] in A. subst a. reflexivity.
Qed.
