(* Proofs about the dispatcher, part 5: sequence numbers of notifications; Interests. *)
From Coq Require Import ZArith Lia ZifyBool ZifyNat ZifyN.
From Verif Require Import Base BaseLemmas M_Tlv M_Name S_Name P_Name P_NameUri M_Ims S_Ims P_Ims P_ImsI P_ImsT T_Ims M_StatusDataset M_Dispatcher S_Dispatcher P_Dispatcher P_Dispatcher2 P_Dispatcher3 P_Dispatcher4.
Open Scope N_scope.

Section D.
Variable conv dconv : convention.

Lemma get_set : forall n v s m, d_getStream m (d_setStream n v s) = if names_eqb n m then v else d_getStream m s.
Proof.
  intros n v s m. unfold d_getStream, d_setStream. cbn. destruct (names_eqb n m) eqn:E; auto.
  assert (X : List.find (fun x => names_eqb (fst x) m) (filter (fun x => negb (names_eqb (fst x) n)) (d_streams s)) = List.find (fun x => names_eqb (fst x) m) (d_streams s)).
  { induction (d_streams s) as [|[a b] l IH]; cbn; auto. destruct (names_eqb a n) eqn:E1; cbn.
    - apply names_eqb_eq in E1. subst a. rewrite E. exact IH.
    - destruct (names_eqb a m); auto. }
  rewrite X. reflexivity.
Qed.
Lemma posts_from_snoc : forall rest h e n, posts_from h (rest ++ [e]) n = posts_from h rest n +
  (if match posted_to (h ++ rest) (fst (fst e)) with Some m => names_eqb m n | None => false end then 1 else 0).
Proof.
  induction rest as [|a rest IH]; intros h e n; cbn.
  - rewrite app_nil_r. lia.
  - rewrite IH. rewrite <- app_assoc. cbn. lia.
Qed.
Lemma posts_snoc : forall h e n, posts (h ++ [e]) n = posts h n + (if match posted_to h (fst (fst e)) with Some m => names_eqb m n | None => false end then 1 else 0).
Proof. intros h e n. unfold posts. rewrite posts_from_snoc. reflexivity. Qed.
Lemma posts_bound : forall h n, posts h n <= nlen h.
Proof.
  induction h as [|e h IH] using rev_ind; intro n; [vm_compute; discriminate|]. rewrite posts_snoc, nlen_app. change (nlen [e]) with 1. specialize (IH n). destruct (match posted_to h (fst (fst e)) with Some m => names_eqb m n | None => false end); lia.
Qed.
Lemma no_reset_prefix : forall h h', no_reset (h ++ h') -> no_reset h.
Proof. intros h h' H h1 n o h2 E. apply (H h1 n o (h2 ++ h')). rewrite E, <- app_assoc. reflexivity. Qed.

Lemma step_streams : forall L h e s s' o x, DInv L h s -> d_step conv dconv e s = (s', o, x) ->
  forall n, d_getStream n s' =
    match e, x with
    | DAddHandler r HStream, None => if names_eqb r n then 0 else d_getStream n s
    | _, _ => match posted_to h e with Some m => if names_eqb m n then (d_getStream n s + 1) mod two64 else d_getStream n s | None => d_getStream n s end
    end.
Proof.
  intros L h e s s' o x I H n. assert (F := di_f _ _ _ I).
  assert (SD : forall n0 b d sg s s' o x, d_send n0 b d sg s = (s', o, x) -> d_getStream n s' = d_getStream n s).
  { intros n0 b0 d0 sg0 s0 s1 o0 x0 H0. apply send_spec in H0 as (_ & _ & E & _). unfold d_getStream. rewrite E. reflexivity. }
  destruct e; cbn [d_step] in H.
  - unfold d_addTop in H. cbn [posted_to]. destruct (existsb _ _); injection H as <- <- <-; reflexivity.
  - unfold d_removeTop in H. injection H as <- <- <-; reflexivity.
  - unfold d_addHandler in H. cbn [posted_to]. destruct (d_checkPrefix r s); injection H as <- <- <-; [destruct k; reflexivity|]. destruct k; try reflexivity. rewrite get_set. reflexivity.
  - unfold d_task in H. cbn [posted_to]. destruct (d_posted s) as [|[f|i] l]; injection H as <- <- <-; reflexivity.
  - cbn [posted_to]. destruct (dispatch_cases dconv (d_table s) q parses s (tables_head _ _ _ (fi_tables _ F))) as [[_ E]|(f & _ & _ & E)]; rewrite E in H; [injection H as <- <- <-; reflexivity|].
    apply handle_spec in H as (_ & E1 & _). unfold d_getStream. rewrite E1. reflexivity.
  - cbn [posted_to]. unfold d_accept in H. destruct (nth_error (d_asked s) i) as [r|]; [|injection H as <- <- <-; reflexivity]. destruct (rq_kind r); try (injection H as <- <- <-; reflexivity).
    destruct valid; [injection H as <- <- <-; reflexivity|]. exact (SD _ _ _ _ _ _ _ _ H).
  - cbn [posted_to]. unfold d_reject in H. destruct (nth_error (d_asked s) i) as [r|]; [|injection H as <- <- <-; reflexivity]. destruct reply; [|injection H as <- <- <-; reflexivity]. exact (SD _ _ _ _ _ _ _ _ H).
  - cbn [posted_to]. unfold d_done in H. destruct (nth_error (d_cmds s) c) as [r|]; [|injection H as <- <- <-; reflexivity]. exact (SD _ _ _ _ _ _ _ _ H).
  - cbn [posted_to]. unfold d_context in H. destruct (nth_error (d_ctxs s) c) as [r|]; [|injection H as <- <- <-; reflexivity]. destruct e as [n0 ct fin|resp]; [|exact (SD _ _ _ _ _ _ _ _ H)].
    destruct (nm_get (-1) n0); [|injection H as <- <- <-; reflexivity]. destruct (toKind _ _ _); [|injection H as <- <- <-; reflexivity]. exact (SD _ _ _ _ _ _ _ _ H).
  - cbn [posted_to]. unfold d_post in H. rewrite (di_handlers _ _ _ I) in H. assert (T := di_tops _ _ _ I). destruct (existsb _ _); cbn [negb] in H; [|injection H as <- <- <-; destruct (tops_of h) as [|? [|]]; reflexivity].
    destruct (d_tops s) as [|[t is] [|t2 l]] eqn:ET; cbn in T; rewrite <- T; try (injection H as <- <- <-; reflexivity).
    assert (X : d_getStream n s' = if names_eqb (t ++ r) n then (d_getStream (t ++ r) s + 1) mod two64 else d_getStream n s).
    { destruct (fromKind _ _ _); [rewrite (SD _ _ _ _ _ _ _ _ H)|injection H as <- <- <-]; rewrite get_set; reflexivity. }
    rewrite X. destruct (names_eqb (t ++ r) n) eqn:E; auto. apply names_eqb_eq in E. subst n. reflexivity.
  - injection H as <- <- <-. reflexivity.
Qed.
Lemma run_streams : forall evs L h0 s0 s h, DInv L h0 s0 -> (forall n, d_getStream n s0 = posts h0 n mod two64) -> d_run conv dconv evs s0 = (s, h) -> no_reset (h0 ++ h) ->
  forall n, d_getStream n s = posts (h0 ++ h) n mod two64.
Proof.
  induction evs as [|e evs IH]; intros L h0 s0 s h I G H NR; cbn in H.
  - injection H as <- <-. rewrite app_nil_r. exact G.
  - destruct (d_step conv dconv e s0) as [[s1 o] x] eqn:E. assert (I1 := step_DInv _ _ _ _ _ _ _ _ _ I E). assert (ST := step_streams _ _ _ _ _ _ _ I E).
    assert (G1 : no_reset (h0 ++ [(e, o, x)]) -> forall n, d_getStream n s1 = posts (h0 ++ [(e, o, x)]) n mod two64).
    { intros N0 n. rewrite ST, posts_snoc, !G. cbn [fst]. assert (P0 : forall r, e = DAddHandler r HStream -> posted_to h0 e = None) by (intros r ->; reflexivity).
      assert (GEN : match posted_to h0 e with Some m => if names_eqb m n then (posts h0 n mod two64 + 1) mod two64 else posts h0 n mod two64 | None => posts h0 n mod two64 end =
        (posts h0 n + (if match posted_to h0 e with Some m => names_eqb m n | None => false end then 1 else 0)) mod two64).
      { destruct (posted_to h0 e) as [m|]; [destruct (names_eqb m n)|]; rewrite ?N.add_0_r; auto. rewrite N.add_mod_idemp_l by (unfold two64; lia). reflexivity. }
      destruct e as [| |r k| | | | | | | |]; auto. destruct k; auto. destruct x; auto. rewrite (P0 r eq_refl), N.add_0_r. destruct (names_eqb r n) eqn:E1; auto. apply names_eqb_eq in E1. subst r.
      rewrite (N0 h0 n o []) by reflexivity. reflexivity. }
    destruct (match x with Some y => catchable y | None => true end).
    + destruct (d_run conv dconv evs s1) as [s2 h2] eqn:E2. injection H as <- <-. change ((e, o, x) :: h2) with ([(e, o, x)] ++ h2) in *. rewrite app_assoc in *. apply (IH _ _ _ _ _ I1); auto. apply G1. exact (no_reset_prefix _ _ NR).
    + injection H as <- <-. auto.
Qed.

(* the storage of a reachable dispatcher *)
Lemma ims_usable : forall L h s, DInv L h s -> 16 <= L -> nlen h < 2 ^ 60 -> exists ops ho, usable FIFO L ops /\ reached FIFO true L ops (d_ims s) ho /\ inserted ops = kept_of (outputs h) /\ no_erase ops.
Proof.
  intros L h s I LB NB. destruct (di_ims _ _ _ I) as (ops & ho & A & B & C & D). exists ops, ho. splits; auto. unfold usable. splits; [exact LB|discriminate|lia].
Qed.
Lemma stored_kept : forall L h s, DInv L h s -> 16 <= L -> nlen h < 2 ^ 60 -> forall p, In p (stored (d_ims s)) -> In (OKept p) (outputs h).
Proof.
  intros L h s I LB NB p Hp. destruct (ims_usable _ _ _ I LB NB) as (ops & ho & U & R & E & NE). assert (X := stored_inserted _ _ _ _ _ U R NE p Hp). rewrite E in X. clear - X.
  unfold kept_of in X. apply in_concat in X as (l & A & B). apply in_map_iff in A as (y & <- & Y). destruct y; try destruct B; auto. subst; auto. destruct H.
Qed.
Lemma inserted_split : forall ops a p b, inserted ops = a ++ p :: b -> exists ops1 w ops2, ops = ops1 ++ IInsert p w :: ops2 /\ inserted ops1 = a /\ inserted ops2 = b.
Proof.
  induction ops as [|o ops IH]; intros a p b H; [destruct a; discriminate|]. change (o :: ops) with ([o] ++ ops) in H. rewrite inserted_app in H.
  destruct o as [x w|n|q|n b0|e]; cbn in H; try (destruct (IH _ _ _ H) as (o1 & w & o2 & -> & A & B); eexists (_ :: o1), w, o2; split; [reflexivity|]; split; [exact A|exact B]).
  destruct a as [|y a]; cbn in H.
  - injection H as <- H. exists [], w, ops. splits; auto.
  - injection H as <- H. destruct (IH _ _ _ H) as (o1 & w1 & o2 & -> & A & B). exists (IInsert x w :: o1), w1, o2. splits; auto. cbn. f_equal. exact A.
Qed.
Lemma kept_retained : forall L h s a p b, DInv L h s -> 16 <= L -> nlen h < 2 ^ 60 -> kept_of (outputs h) = a ++ p :: b -> ~ In p a -> nlen b < L -> In p (stored (d_ims s)).
Proof.
  intros L h s a p b I LB NB E NA LT. destruct (ims_usable _ _ _ I LB NB) as (ops & ho & U & R & EI & NE). rewrite E in EI. destruct (inserted_split _ _ _ _ EI) as (ops1 & w & ops2 & -> & E1 & E2).
  assert (NE1 : no_erase ops1) by (intros n b0 X; apply (NE n b0); apply in_or_app; left; exact X). assert (NE2 : no_erase ops2) by (intros n b0 X; apply (NE n b0); apply in_or_app; right; right; exact X).
  assert (U1 := usable_prefix _ _ _ _ U). destruct (reached_inv FIFO true L ops1 U1) as (s1 & h1 & R1 & _).
  apply (retain L true ops1 p w ops2 s1 h1 (d_ims s) ho); auto.
  - intro X. apply NA. rewrite <- E1. exact (stored_inserted _ _ _ _ _ U1 R1 NE1 p X).
  - rewrite E2. exact LT.
Qed.
(* looking something up *)
Lemma lookup_cases : forall L h s q, DInv L h s -> 16 <= L -> nlen h < 2 ^ 60 ->
  exists c, im_findInterest q (d_ims s) = Ok (d_ims s, match im_findInterest q (d_ims s) with Ok (_, o, _) => o | _ => [] end, c) /\
    match c with Some p => In p (stored (d_ims s)) /\ q_accepts q p | None => forall p, ~ q_eligible q (d_ims s) p end.
Proof.
  intros L h s q I LB NB. destruct (ims_usable _ _ _ I LB NB) as (ops & ho & U & R & _ & _). destruct (reached_Inv _ _ _ _ _ _ U R) as (IM & _ & PO & _).
  assert (FS : forall m o c, im_findInterest q (d_ims s) = Ok (m, o, c) -> m = d_ims s).
  { intros m o c H. unfold im_findInterest in H. destruct (im_lookup _ _); [injection H as <- _ _; reflexivity|]. destruct (im_lower _ _) as [bef [|e l]]; [injection H as <- _ _; reflexivity|].
    destruct (im_selectChild _ _); [|injection H as <- _ _; reflexivity]. unfold found, im_afterAccess in H. rewrite PO in H. injection H as <- _ _. reflexivity. }
  destruct (findInterest_spec _ _ _ q IM) as (m & o & c & A & _); [apply U|]. exists c. rewrite A. rewrite (FS _ _ _ A) in A |- *. split; auto.
  destruct c as [p|]; [exact (find_sound _ _ _ _ _ A)|].
  destruct (List.find (fun p => names_eqb (pk_full p) (q_name q)) (stored (d_ims s))) as [p|] eqn:EF.
  - apply find_some in EF as [F1 F2]. apply names_eqb_eq in F2. destruct (C31_exact _ _ _ _ _ _ q p U R F1 (eq_sym F2)) as (s2 & o2 & X). rewrite X in A. discriminate.
  - assert (ND : forall p, In p (stored (d_ims s)) -> pk_full p <> q_name q) by (intros p Hp X; apply (find_none _ _ EF) in Hp; apply names_eqb_neq in Hp; auto).
    destruct (C31_find_partial _ _ _ _ _ _ q U R) as (s2 & o2 & c2 & X & LM).
    + intros _ p E (e & Z1 & Z2 & _). apply (ND p); auto. rewrite <- Z2. apply in_map. exact Z1.
    + rewrite X in A. injection A as _ _ ->. exact LM.
Qed.
Lemma handle_reaction : forall L h s f q ps s' o x, DInv L h s -> 16 <= L -> nlen h < 2 ^ 60 -> d_handle dconv f q ps s = (s', o, x) ->
  reaction dconv h (d_ims s) (fr_top f) (fr_rel f) q ps (fr_kind f) o /\ x = None \/
  fr_kind f = HCommand false /\ nlen (q_name q) <= nlen (fr_top f) + nlen (fr_rel f) /\ o = [] /\ x = Some EUb.
Proof.
  intros L h s f q ps s' o x I LB NB H. unfold d_handle in H.
  assert (NEW : forall r', ~ In (OAuthorize (List.length (d_asked s)) r') (outputs h)).
  { intros r' X. apply (di_asked _ _ _ I) in X. assert (Y : nth_error (d_asked s) (List.length (d_asked s)) <> None) by congruence. apply nth_error_Some in Y. lia. }
  destruct (fr_kind f) as [c| |] eqn:K.
  - unfold d_parse in H. destruct (nlen (q_name q) <=? nlen (fr_top f) + (if c then 2 else nlen (fr_rel f))) eqn:E.
    + destruct c; injection H as <- <- <-; [left; split; auto; constructor; right; split; auto; lia|right; splits; auto; lia].
    + left. destruct ps; injection H as <- <- <-; split; auto; [apply re_command; auto; lia|apply re_malformed; auto].
  - left. destruct (lookup_cases L h s q I LB NB) as (c & A & B). rewrite A in H. destruct c as [p|].
    + injection H as <- <- <-. split; auto. apply re_stored; auto; apply B.
    + destruct (endsWithVersionOrSegment dconv (q_name q)) eqn:EW; injection H as <- <- <-; split; auto.
      * apply re_numbered; auto. apply ends_iff. exact EW.
      * apply re_dataset; auto. intro Z. apply ends_iff in Z. congruence.
  - left. destruct (lookup_cases L h s q I LB NB) as (c & A & B). rewrite A in H. destruct c as [p|].
    + injection H as <- <- <-. split; auto. apply re_stored; auto; apply B.
    + injection H as <- <- <-. split; auto. apply re_nothing; auto.
Qed.
End D.
