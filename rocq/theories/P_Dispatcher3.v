(* Proofs about the dispatcher, part 3: every output is justified. *)
From Coq Require Import ZArith Lia ZifyBool ZifyNat ZifyN.
From Verif Require Import Base BaseLemmas M_Tlv M_Name S_Name M_Ims S_Ims P_Ims P_ImsI P_ImsT T_Ims M_StatusDataset M_Dispatcher S_Dispatcher P_Dispatcher P_Dispatcher2.
Open Scope N_scope.

Section D.
Variable conv dconv : convention.

Lemma ends_iff : forall n, endsWithVersionOrSegment dconv n = true <-> ends_numbered dconv n.
Proof.
  intro n. unfold endsWithVersionOrSegment, ends_numbered.
  assert (K : forall k (c c' : comp), ckey c = ckey c' -> isKind dconv k c = isKind dconv k c').
  { intros k c c' E. unfold ckey in E. injection E as E1 E2. unfold isKind, isNumberWithMarker, isNumber. rewrite E1, E2. reflexivity. }
  destruct (rev n) as [|k l] eqn:E.
  - split; [discriminate|]. intros (f & c & -> & _). rewrite rev_app_distr in E. discriminate.
  - assert (N : n = rev l ++ [k]) by (rewrite <- (rev_involutive n), E; reflexivity). split.
    + intro H. exists (rev l), (mkComp (fst k) None (snd k)). split; [rewrite N; destruct k; reflexivity|]. apply orb_true_iff in H. exact H.
    + intros (f & c & F & H). rewrite N in F. apply app_inj_tail in F as [_ F]. apply orb_true_iff.
      rewrite !(fun k0 => K k0 (mkComp (fst k) None (snd k)) c) by (rewrite F; reflexivity). exact H.
Qed.

Definition kind_cond (r : dreq) (ps : bool) : Prop :=
  match rq_kind r with
  | HCommand c => ps = true /\ nlen (rq_top r) + (if c then 2 else nlen (rq_rel r)) < nlen (q_name (rq_int r))
  | HDataset => ~ ends_numbered dconv (q_name (rq_int r))
  | HStream => False
  end.
Lemma find_sound : forall q m m' ho p, im_findInterest q m = Ok (m', ho, Some p) -> In p (stored m) /\ q_accepts q p.
Proof.
  intros q m m' ho p H. unfold im_findInterest in H. destruct (im_lookup (q_name q) m) as [e|] eqn:EL.
  - injection H as _ _ <-. apply im_lookup_some in EL as [A B]. split; [apply in_map; exact A|]. left. symmetry. exact B.
  - destruct (im_lower (q_name q) (im_cache m)) as [bef [|e0 l]] eqn:EW; [discriminate|].
    assert (SP : im_cache m = bef ++ e0 :: l).
    { clear - EW. revert bef e0 l EW. generalize (im_cache m). induction l as [|x c IH]; intros bef e0 l' EW; cbn in EW; [discriminate|].
      destruct (names_ltb (en_full x) (q_name q)); [|injection EW as <- <- <-; reflexivity]. destruct (im_lower (q_name q) c) as [a [|y b]] eqn:E; [discriminate|]. injection EW as <- -> ->. cbn. f_equal. apply IH. reflexivity. }
    set (start := match rev bef with [] => e0 :: l | x :: _ => x :: e0 :: l end) in H.
    assert (SI : forall e, In e start -> In e (im_cache m)).
    { intros e He. rewrite SP. apply in_or_app. unfold start in He. destruct (rev bef) as [|x r] eqn:ER; [right; exact He|]. destruct He as [<-|He]; [left|right; exact He]. apply in_rev. rewrite ER. left. reflexivity. }
    destruct (im_selectChild q start) as [e|] eqn:ES; [|discriminate]. unfold found in H. destruct (im_afterAccess _ _); cbn in H; [|discriminate]. injection H as _ _ <-. split.
    + apply in_map. apply SI. exact (im_select_in _ _ _ ES).
    + apply q_matches_iff. unfold im_selectChild in ES.
      assert (R : forall l e, im_right q l = Some e -> q_matches q (en_pk e) = true).
      { induction l0 as [|y l0 IH]; intros e1 E1; cbn in E1; [discriminate|]. destruct (q_mbf q && negb (en_fresh y)); [exact (IH _ E1)|].
        destruct (prefixb _ _); [|discriminate]. destruct (q_matches q (en_pk y)) eqn:E2; [injection E1 as <-; exact E2|exact (IH _ E1)]. }
      destruct (if q_mbf q then im_nextFresh start else start) as [|y l0]; [discriminate|]. destruct (q_matches q (en_pk y)) eqn:E2; [injection ES as <-; exact E2|exact (R _ _ ES)].
Qed.

(* outputs explained by the state *)
Definition sjust (s : dstate) (e : devent) (y : dout) : Prop :=
  match y with
  | OAuthorize i r => exists ps f, e = DInterest (rq_int r) ps /\ In f (d_table s) /\ rq_top r = fr_top f /\ rq_rel r = fr_rel f /\ rq_kind r = fr_kind f /\
      matching (rq_int r) f = true /\ kind_cond r ps
  | OCommand c r => exists i sg b, e = DAccept i true sg /\ nth_error (d_asked s) i = Some r /\ rq_kind r = HCommand b
  | ODataset c r => exists i v sg, e = DAccept i v sg /\ nth_error (d_asked s) i = Some r /\ forall b, rq_kind r <> HCommand b
  | OSent p (BResponse code) =>
      (exists i r dg, e = DReject i true (Some dg) /\ nth_error (d_asked s) i = Some r /\ code = 403 /\ p = response r dg) \/
      (exists i r dg b, e = DAccept i false (Some dg) /\ nth_error (d_asked s) i = Some r /\ rq_kind r = HCommand b /\ code = 400 /\ p = response r dg) \/
      (exists c r dg, e = DDone c code (Some dg) /\ nth_error (d_cmds s) c = Some r /\ p = response r dg)
  | OSent p (BNack resp) => exists c r dg, e = DContext c (SdNack resp) (Some dg) /\ nth_error (d_ctxs s) c = Some r /\ p = response r dg
  | OSent p (BSegment content final) => exists c r n dg, e = DContext c (SdData n content final) (Some dg) /\ nth_error (d_ctxs s) c = Some r /\ p = mkPkt (nkey n) dg
  | OSent p BNotification => exists r dg, e = DPost r (Some dg) /\ In (r, HStream) (d_handlers s) /\ pk_digest p = dg
  | OSent p BStored => exists q ps, e = DInterest q ps /\ q_accepts q p /\ In p (stored (d_ims s))
  | OKept p =>
      (exists c r n content final dg, e = DContext c (SdData n content final) (Some dg) /\ nth_error (d_ctxs s) c = Some r /\ p = mkPkt (nkey n) dg) \/
      (exists r dg, e = DPost r (Some dg) /\ In (r, HStream) (d_handlers s) /\ pk_digest p = dg)
  end.
Lemma send_outs : forall n b d sg s s' o x y, d_send n b d sg s = (s', o, x) -> In y o ->
  exists dg, sg = Some dg /\ (y = OSent (mkPkt n dg) b \/ d <> ToFace /\ y = OKept (mkPkt n dg)).
Proof.
  intros n b d sg s s' o x y H Y. destruct (send_spec _ _ _ _ _ _ _ _ H) as (_ & _ & _ & _ & [->|(dg & -> & _ & ->)]); [destruct Y|]. exists dg. split; auto.
  destruct d; cbn in Y; destruct Y as [<-|Y]; auto; try (destruct Y as [<-|[]]; auto); try (destruct Y); right; split; auto; discriminate.
Qed.
Lemma stream_exists : forall r hs, existsb (fun x => names_eqb (fst x) r && hkind_eqb (snd x) HStream) hs = true <-> In (r, HStream) hs.
Proof.
  intros r hs. rewrite existsb_exists. split.
  - intros ([r' k] & A & B). cbn in B. apply andb_true_iff in B as [B C]. apply names_eqb_eq in B. subst. destruct k; try discriminate. exact A.
  - intro H. exists (r, HStream). split; auto. cbn. rewrite names_eqb_refl. reflexivity.
Qed.
Lemma step_sjust : forall e s s' o x y, FInv s -> d_step conv dconv e s = (s', o, x) -> In y o -> sjust s e y.
Proof.
  intros e s s' o x y I H Y. destruct e; cbn [d_step] in H.
  - unfold d_addTop in H. destruct (existsb _ _); injection H as <- <- _; destruct Y.
  - unfold d_removeTop in H. injection H as <- <- _; destruct Y.
  - unfold d_addHandler in H. destruct (d_checkPrefix r s); injection H as <- <- _; destruct Y.
  - unfold d_task in H. destruct (d_posted s) as [|[f|i] l]; injection H as <- <- _; destruct Y.
  - destruct (dispatch_cases dconv (d_table s) q parses s (tables_head _ _ _ (fi_tables _ I))) as [[_ E]|(f & Hf & M & E)]; rewrite E in H; [injection H as <- <- _; destruct Y|].
    destruct (handle_spec _ _ _ _ _ _ _ _ H) as (_ & _ & _ & _ & _ & [[_ Q]|(_ & -> & _ & K)]).
    + unfold d_handle in H. assert (ST : forall k, match im_findInterest q (d_ims s) with Err e => (s, [], Some e) | Ok (m, _, Some p) => (setIms m s, [OSent p BStored], None) | Ok (m, _, None) => k m end = (s', o, x) ->
        (forall m, k m = (s', o, x) -> forall z, In z o -> match z with OAuthorize _ _ => True | _ => False end) -> sjust s (DInterest q parses) y).
      { intros k HH KK. destruct (im_findInterest q (d_ims s)) as [[[m ho] [p|]]|er] eqn:EF; [| |injection HH as <- <- _; destruct Y].
        - injection HH as <- <- _. destruct Y as [<-|[]]. destruct (find_sound _ _ _ _ _ EF) as [A B]. exists q, parses. auto.
        - specialize (KK m HH y Y). specialize (Q y Y). destruct y; contradiction. }
      destruct (fr_kind f) as [c| |] eqn:EK.
      * exfalso. unfold d_parse in H. destruct (_ <=? _); [destruct c; injection H as <- <- _; destruct Y|]. destruct parses; injection H as <- <- _; [|destruct Y]. destruct Y as [<-|[]]. exact (Q _ (or_introl eq_refl)).
      * apply (ST _ H). intros m HH z Z. destruct (endsWithVersionOrSegment _ _); injection HH as _ <- _; [destruct Z|]. destruct Z as [<-|[]]. exact Logic.I.
      * apply (ST _ H). intros m HH z Z. injection HH as _ <- _. destruct Z.
    + destruct Y as [<-|[]]. cbn. exists parses, f. splits; auto. unfold kind_cond. cbn. destruct (fr_kind f); auto. intro Z. apply ends_iff in Z. congruence.
  - unfold d_accept in H. destruct (nth_error (d_asked s) i) as [r|] eqn:EN; [|injection H as <- <- _; destruct Y]. destruct (rq_kind r) eqn:EK.
    + destruct valid.
      * injection H as <- <- _. destruct Y as [<-|[]]. cbn. eauto 10.
      * destruct (send_outs _ _ _ _ _ _ _ _ _ H Y) as (dg & -> & [->|[F _]]); [|exfalso; auto]. cbn. right. left. exists i, r, dg, checked. splits; auto.
    + injection H as <- <- _. destruct Y as [<-|[]]. cbn. exists i, valid, sg. splits; auto. intro b. congruence.
    + injection H as <- <- _. destruct Y as [<-|[]]. cbn. exists i, valid, sg. splits; auto. intro b. congruence.
  - unfold d_reject in H. destruct (nth_error (d_asked s) i) as [r|] eqn:EN; [|injection H as <- <- _; destruct Y]. destruct reply; [|injection H as <- <- _; destruct Y].
    destruct (send_outs _ _ _ _ _ _ _ _ _ H Y) as (dg & -> & [->|[F _]]); [|exfalso; auto]. cbn. left. exists i, r, dg. splits; auto.
  - unfold d_done in H. destruct (nth_error (d_cmds s) c) as [r|] eqn:EN; [|injection H as <- <- _; destruct Y].
    destruct (send_outs _ _ _ _ _ _ _ _ _ H Y) as (dg & -> & [->|[F _]]); [|exfalso; auto]. cbn. right. right. exists c, r, dg. splits; auto.
  - unfold d_context in H. destruct (nth_error (d_ctxs s) c) as [r|] eqn:EN; [|injection H as <- <- _; destruct Y]. destruct e as [n ct fin|resp].
    + destruct (nm_get (-1) n); [|injection H as <- <- _; destruct Y]. destruct (toKind _ _ _); [|injection H as <- <- _; destruct Y].
      destruct (send_outs _ _ _ _ _ _ _ _ _ H Y) as (dg & -> & [->|[_ ->]]); cbn; [exists c, r, n, dg; splits; auto|left; exists c, r, n, ct, fin, dg; splits; auto].
    + destruct (send_outs _ _ _ _ _ _ _ _ _ H Y) as (dg & -> & [->|[F _]]); [|exfalso; auto]. cbn. exists c, r, dg. splits; auto.
  - unfold d_post in H. destruct (existsb _ _) eqn:EX; cbn [negb] in H; [|injection H as <- <- _; destruct Y]. apply stream_exists in EX. destruct (d_tops s) as [|[t is] [|]]; try (injection H as <- <- _; destruct Y; fail).
    destruct (fromKind _ _ _); [|injection H as <- <- _; destruct Y]. destruct (send_outs _ _ _ _ _ _ _ _ _ H Y) as (dg & -> & [->|[_ ->]]); cbn; [|right]; exists r, dg; splits; auto.
  - injection H as <- <- _. destruct Y.
Qed.

Lemma numbered : forall (A : Type) (mk : nat -> A -> dout) (l l' : list A) (out o : list dout),
  (forall i r j q, mk i r = mk j q -> i = j /\ r = q) ->
  (forall i r, In (mk i r) out <-> nth_error l i = Some r) ->
  (l' = l /\ (forall i r, ~ In (mk i r) o) \/ exists r, l' = l ++ [r] /\ o = [mk (List.length l) r]) ->
  forall i r, In (mk i r) (out ++ o) <-> nth_error l' i = Some r.
Proof.
  intros A mk l l' out o INJ H [[-> N]|(r0 & -> & ->)] i r; rewrite in_app_iff, H.
  - split; auto. intros [X|X]; auto. exfalso. exact (N _ _ X).
  - rewrite nth_snoc. cbn. split; intros [X|X]; auto.
    + destruct X as [X|[]]. apply INJ in X as [<- <-]. auto.
    + destruct X as [-> ->]. auto.
Qed.
Lemma was_tables : forall h e T l, tables (fun T => forall f, In f T -> was_in_force h f) T l -> tables (fun T => forall f, In f T -> was_in_force (h ++ [e]) f) T l.
Proof. intros h e T l. apply tables_mono. intros T' H f Hf. apply was_mono. auto. Qed.
Lemma step_tops : forall h e s s' o x, FInv s -> map fst (d_tops s) = tops_of h -> d_step conv dconv e s = (s', o, x) -> map fst (d_tops s') = tops_of (h ++ [(e, o, x)]).
Proof.
  intros h e s s' o x F T H. rewrite tops_snoc. destruct (registers e) eqn:R.
  - destruct e; try discriminate; cbn [d_step] in H.
    + unfold d_addTop in H. destruct (existsb _ _); injection H as <- <- <-; cbn; rewrite <- T; reflexivity.
    + unfold d_removeTop in H. injection H as <- <- <-; cbn. rewrite <- T. clear. induction (d_tops s) as [|[t' is] l IH]; cbn; auto. destruct (names_eqb t' t); cbn; rewrite IH; reflexivity.
    + unfold d_addHandler in H. destruct (d_checkPrefix r s); injection H as <- <- <-; [exact T|]. cbn. rewrite <- T. destruct k; reflexivity.
    + unfold d_task in H. destruct (d_posted s) as [|[f|i] l]; injection H as <- <- <-; exact T.
  - destruct (step_filters _ _ _ _ _ _ _ F H R) as (-> & _). rewrite T. destruct e; try discriminate; reflexivity.
Qed.
Lemma step_handlers : forall h e s s' o x, FInv s -> d_handlers s = handlers_of h -> d_step conv dconv e s = (s', o, x) -> d_handlers s' = handlers_of (h ++ [(e, o, x)]).
Proof.
  intros h e s s' o x F T H. rewrite handlers_snoc. destruct (registers e) eqn:R.
  - destruct e; try discriminate; cbn [d_step] in H.
    + unfold d_addTop in H. destruct (existsb _ _); injection H as <- <- <-; exact T.
    + unfold d_removeTop in H. injection H as <- <- <-; exact T.
    + unfold d_addHandler in H. destruct (d_checkPrefix r s); injection H as <- <- <-; [exact T|]. cbn. rewrite <- T. destruct k; reflexivity.
    + unfold d_task in H. destruct (d_posted s) as [|[f|i] l]; injection H as <- <- <-; exact T.
  - destruct (step_filters _ _ _ _ _ _ _ F H R) as (_ & -> & _). rewrite T. destruct e; try discriminate; reflexivity.
Qed.
Lemma step_was : forall L h e s s' o x, DInv L h s -> d_step conv dconv e s = (s', o, x) ->
  tables (fun T => forall f, In f T -> was_in_force (h ++ [(e, o, x)]) f) (d_table s') (d_posted s').
Proof.
  intros L h e s s' o x I H. assert (F := di_f _ _ _ I). assert (W := di_was _ _ _ I). destruct (registers e) eqn:R.
  - assert (T := step_tops h e s s' o x F (di_tops _ _ _ I) H). assert (HH := step_handlers h e s s' o x F (di_handlers _ _ _ I) H).
    destruct e; try discriminate; cbn [d_step] in H.
    + unfold d_addTop in H. destruct (existsb _ _); injection H as <- <- <-; [apply was_tables; exact W|]. cbn [d_table d_posted setPosted setNextid setTops].
      apply tables_app; [apply was_tables; exact W|]. apply tables_set. intros k f Hf. apply in_app_or in Hf as [Hf|Hf].
      * apply was_mono. exact (tables_last _ _ _ W f Hf).
      * exists (h ++ [(DAddTop t, [], None)]), []. split; [symmetry; apply app_nil_r|]. assert (K : In f (d_filters t (d_handlers s) (d_nextid s))).
        { rewrite <- (firstn_skipn k). apply in_or_app. left. exact Hf. }
        apply filters_in in K as (j & K1 & -> & _). split; [rewrite <- T; left; reflexivity|]. rewrite <- HH. exact (nth_error_In _ _ K1).
    + unfold d_removeTop in H. injection H as <- <- <-. cbn [d_table d_posted setPosted setNextid setTops]. apply tables_app; [apply was_tables; exact W|]. apply tables_unset.
      * intros p T0 H0 f Hf. apply filter_In in Hf as [Hf _]. auto.
      * intros f Hf. apply was_mono. exact (tables_last _ _ _ W f Hf).
    + unfold d_addHandler in H. destruct (d_checkPrefix r s); injection H as <- <- <-; [apply was_tables; exact W|]. destruct k; apply was_tables; exact W.
    + unfold d_task in H. destruct (d_posted s) as [|[f|i] l] eqn:E; injection H as <- <- <-; cbn [d_table d_posted setPosted setTable]; rewrite ?E; apply was_tables; try exact W; destruct W as [_ W]; exact W.
  - destruct (step_filters _ _ _ _ _ _ _ F H R) as (_ & _ & -> & -> & _). apply was_tables. exact W.
Qed.
Lemma step_DInv : forall L h e s s' o x, DInv L h s -> d_step conv dconv e s = (s', o, x) -> DInv L (h ++ [(e, o, x)]) s'.
Proof.
  intros L h e s s' o x I H. assert (F := di_f _ _ _ I). assert (C := step_conts _ _ _ _ _ _ _ F H).
  assert (J : forall y, In y o -> sjust s e y) by (intros y Hy; exact (step_sjust _ _ _ _ _ _ F H Hy)).
  constructor.
  - exact (step_FInv _ _ _ _ _ _ _ F H).
  - exact (step_tops _ _ _ _ _ _ F (di_tops _ _ _ I) H).
  - exact (step_handlers _ _ _ _ _ _ F (di_handlers _ _ _ I) H).
  - exact (step_was _ _ _ _ _ _ _ I H).
  - rewrite outputs_snoc. apply (numbered _ OAuthorize (d_asked s)); [intros ? ? ? ? X; injection X; auto|exact (di_asked _ _ _ I)|].
    destruct C as [o' (A & _) Q|r A _ _|r A _ _|r A _ _]; try (left; split; [exact A|]; intros i q [X|[]]; discriminate); [left; split; [exact A|]; intros i r X; exact (Q _ X)|right; eauto].
  - rewrite outputs_snoc. apply (numbered _ OCommand (d_cmds s)); [intros ? ? ? ? X; injection X; auto|exact (di_cmds _ _ _ I)|].
    destruct C as [o' (_ & A & _) Q|r _ A _|r _ A _|r _ A _]; try (left; split; [exact A|]; intros i q [X|[]]; discriminate); [left; split; [exact A|]; intros i r X; exact (Q _ X)|right; eauto].
  - rewrite outputs_snoc. apply (numbered _ ODataset (d_ctxs s)); [intros ? ? ? ? X; injection X; auto|exact (di_ctxs _ _ _ I)|].
    destruct C as [o' (_ & _ & A) Q|r _ _ A|r _ _ A|r _ _ A]; try (left; split; [exact A|]; intros i q [X|[]]; discriminate); [left; split; [exact A|]; intros i r X; exact (Q _ X)|right; eauto].
  - intros r Hr. assert (X : In r (d_asked s) \/ exists i, In (OAuthorize i r) o).
    { destruct C as [o' (A & _) Q|r' A _ _|r' A _ _|r' A _ _]; rewrite A in Hr; auto. apply in_app_or in Hr as [Hr|[<-|[]]]; auto. right. eexists. left. reflexivity. }
    destruct X as [X|[i X]]; [exact (di_kinds _ _ _ I _ X)|]. destruct (J _ X) as (ps & f & _ & _ & _ & _ & _ & _ & K). unfold kind_cond in K. intro E. rewrite E in K. exact K.
  - apply (path_extend L s s' o h (e, o, x) eq_refl (di_ims _ _ _ I)). exact (step_path _ _ _ _ _ _ _ F H).
Qed.
Lemma step_justified : forall L h e s s' o x y, DInv L h s -> (forall p, In p (stored (d_ims s)) -> In (OKept p) (outputs h)) ->
  d_step conv dconv e s = (s', o, x) -> In y o -> justified dconv h e y.
Proof.
  intros L h e s s' o x y I KP H Y. assert (J := step_sjust _ _ _ _ _ _ (di_f _ _ _ I) H Y).
  destruct y as [i r|c r|c r|p [code|resp|ct fin| |]|p]; cbn in J; cbn [justified].
  - destruct J as (ps & f & -> & A & B & C & D & E & K). exists ps. splits; auto.
    + unfold under. rewrite B, C. apply prefixb_iff. exact E.
    + destruct (tables_head _ _ _ (di_was _ _ _ I) f A) as (h1 & h2 & W1 & W2). exists h1, h2. split; auto. rewrite B, C, D. exact W2.
  - destruct J as (i & sg & b & -> & A & B). exists i, sg. splits; eauto. apply (di_asked _ _ _ I). exact A.
  - destruct J as (i & v & sg & -> & A & B). exists i, v, sg. splits; auto; [apply (di_asked _ _ _ I); exact A|].
    assert (K := di_kinds _ _ _ I r (nth_error_In _ _ A)). destruct (rq_kind r); auto; [exfalso; exact (B _ eq_refl)|contradiction].
  - destruct J as [(i & r & dg & -> & A & B)|[(i & r & dg & b & -> & A & B)|(c & r & dg & -> & A & B)]].
    + left. exists i, r, dg. split; [reflexivity|]. split; [apply (di_asked _ _ _ I); exact A|exact B].
    + right. left. exists i, r, dg, b. split; [reflexivity|]. split; [apply (di_asked _ _ _ I); exact A|exact B].
    + right. right. exists c, r, dg. split; [reflexivity|]. split; [apply (di_cmds _ _ _ I); exact A|exact B].
  - destruct J as (c & r & dg & -> & A & B). exists c, r, dg. split; [reflexivity|]. split; [apply (di_ctxs _ _ _ I); exact A|exact B].
  - destruct J as (c & r & n & dg & -> & A & B). exists c, r, n, dg. split; [reflexivity|]. split; [apply (di_ctxs _ _ _ I); exact A|exact B].
  - rewrite <- (di_handlers _ _ _ I). exact J.
  - destruct J as (q & ps & -> & A & B). exists q, ps. splits; auto.
  - destruct J as [(c & r & n & ct & fin & dg & -> & A & B)|J]; [left; exists c, r, n, ct, fin, dg; splits; auto; apply (di_ctxs _ _ _ I); exact A|right]. rewrite <- (di_handlers _ _ _ I). exact J.
Qed.

(* whole histories *)
Lemma run_DInv : forall evs L h0 s0 s h, DInv L h0 s0 -> d_run conv dconv evs s0 = (s, h) -> DInv L (h0 ++ h) s.
Proof.
  induction evs as [|e evs IH]; intros L h0 s0 s h I H; cbn in H.
  - injection H as <- <-. rewrite app_nil_r. exact I.
  - destruct (d_step conv dconv e s0) as [[s1 o] x] eqn:E. assert (I1 := step_DInv _ _ _ _ _ _ _ I E). destruct (match x with Some y => catchable y | None => true end).
    + destruct (d_run conv dconv evs s1) as [s2 h2] eqn:E2. injection H as <- <-. specialize (IH _ _ _ _ _ I1 E2). rewrite <- app_assoc in IH. exact IH.
    + injection H as <- <-. exact I1.
Qed.
Lemma run_splits : forall evs s0 s h h1 e o x h2, d_run conv dconv evs s0 = (s, h) -> h = h1 ++ (e, o, x) :: h2 ->
  exists evs1 evs2 s1 s2, evs = evs1 ++ e :: evs2 /\ d_run conv dconv evs1 s0 = (s1, h1) /\ d_step conv dconv e s1 = (s2, o, x) /\
    (h2 = [] /\ s2 = s \/ d_run conv dconv evs2 s2 = (s, h2)).
Proof.
  induction evs as [|e0 evs IH]; intros s0 s h h1 e o x h2 H E; cbn in H; [injection H as <- <-; destruct h1; discriminate|].
  destruct (d_step conv dconv e0 s0) as [[s1 o1] x1] eqn:ES. destruct (match x1 with Some y => catchable y | None => true end) eqn:EC.
  - destruct (d_run conv dconv evs s1) as [s2 h'] eqn:ER. injection H as <- <-. destruct h1 as [|a h1]; cbn in E.
    + injection E as <- <- <- <-. exists [], evs, s0, s1. splits; auto.
    + injection E as <- E. destruct (IH _ _ _ _ _ _ _ _ ER E) as (evs1 & evs2 & t1 & t2 & -> & A & B & C). exists (e0 :: evs1), evs2, t1, t2. splits; auto. cbn. rewrite ES, EC, A. reflexivity.
  - injection H as <- <-. destruct h1 as [|a [|b h1]]; try discriminate. cbn in E. injection E as <- <- <- <-. exists [], evs, s0, s1. splits; auto.
Qed.
Lemma run_length : forall evs s0 s h, d_run conv dconv evs s0 = (s, h) -> nlen h <= nlen evs.
Proof.
  induction evs as [|e evs IH]; intros s0 s h H; cbn in H; [injection H as <- <-; vm_compute; discriminate|].
  destruct (d_step conv dconv e s0) as [[s1 o] x]. destruct (match x with Some y => catchable y | None => true end).
  - destruct (d_run conv dconv evs s1) as [s2 h2] eqn:E. injection H as <- <-. rewrite !nlen_cons. specialize (IH _ _ _ E). lia.
  - injection H as <- <-. rewrite !nlen_cons, nlen_nil. lia.
Qed.
End D.
