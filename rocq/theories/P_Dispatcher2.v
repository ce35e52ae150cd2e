(* Proofs about the dispatcher, part 2: the invariant of histories. *)
From Coq Require Import ZArith Lia ZifyBool ZifyNat ZifyN.
From Verif Require Import Base BaseLemmas M_Tlv M_Name S_Name M_Ims S_Ims P_Ims P_ImsI P_ImsT T_Ims M_StatusDataset M_Dispatcher S_Dispatcher P_Dispatcher.
Open Scope N_scope.

Section D.
Variable conv dconv : convention.

Definition matching (q : qint) (f : frec) : bool := prefixb (fr_top f ++ fr_rel f) (q_name q).
Lemma dispatch_none : forall T q ps s, (forall f, In f T -> matching q f = false) -> d_dispatch dconv T q ps s = (s, [], None).
Proof.
  induction T as [|f T IH]; intros q ps s H; cbn; auto. assert (E := H f (or_introl eq_refl)). unfold matching in E. rewrite E. apply IH. intros g Hg. apply H. right. exact Hg.
Qed.
Lemma dispatch_one : forall T q ps s f, apart full T -> In f T -> matching q f = true -> d_dispatch dconv T q ps s = d_handle dconv f q ps s.
Proof.
  induction T as [|g T IH]; intros q ps s f A Hf M; [destruct Hf|]. cbn. inversion A as [|? ? F A']; subst.
  assert (X : forall x y, In x (g :: T) -> In y (g :: T) -> matching q x = true -> matching q y = true -> x = y).
  { intros x y Hx Hy Mx My. apply (apart_eq _ full (g :: T)); auto. apply (prefixes_comparable (q_name q)); apply prefixb_iff; [exact Mx|exact My]. }
  destruct Hf as [->|Hf].
  - unfold matching in M. rewrite M. destruct (d_handle dconv f q ps s) as [[s1 o] [e|]]; [reflexivity|]. rewrite dispatch_none; [now rewrite app_nil_r|].
    intros y Hy. destruct (matching q y) eqn:E; auto. assert (f = y) by (apply X; auto; [left; reflexivity|right; exact Hy]). subst y. rewrite Forall_forall in F. exfalso. exact (F _ Hy (comparable_refl _)).
  - destruct (prefixb (fr_top g ++ fr_rel g) (q_name q)) eqn:E.
    + assert (g = f) by (apply X; auto; [left; reflexivity|right; exact Hf]). subst g. rewrite Forall_forall in F. exfalso. exact (F _ Hf (comparable_refl _)).
    + apply IH; auto.
Qed.
Lemma dispatch_cases : forall T q ps s, apart full T ->
  (forall f, In f T -> matching q f = false) /\ d_dispatch dconv T q ps s = (s, [], None) \/
  exists f, In f T /\ matching q f = true /\ d_dispatch dconv T q ps s = d_handle dconv f q ps s.
Proof.
  intros T q ps s A. destruct (existsb (matching q) T) eqn:E.
  - apply existsb_exists in E as (f & Hf & M). right. exists f. splits; auto. apply dispatch_one; auto.
  - rewrite existsb_no in E. left. split; auto. apply dispatch_none. exact E.
Qed.

(* ---- what each step leaves alone ---- *)
Definition inserted (ops : list iop) : list pkt := List.concat (map (fun x => match x with IInsert p _ => [p] | _ => [] end) ops).
Definition no_erase (ops : list iop) : Prop := forall n b, ~ In (IErase n b) ops.
Definition ims_path (m : ims) (o : list dout) (m' : ims) : Prop :=
  exists ops ho, im_run ops m = Ok (m', ho) /\ inserted ops = kept_of o /\ no_erase ops /\ nlen ops <= 1.
Lemma path_refl : forall m o, kept_of o = [] -> ims_path m o m.
Proof. intros m o K. exists [], []. splits; auto; [intros n b []|rewrite nlen_nil; lia]. Qed.
Lemma path_one : forall m o m' op ho, im_step op m = Ok (m', ho) -> inserted [op] = kept_of o -> (forall n b, op <> IErase n b) -> ims_path m o m'.
Proof.
  intros m o m' op ho E K NE. exists [op], (ho ++ []). splits; auto.
  - cbn [im_run bind]. rewrite E. reflexivity.
  - intros n b [X|[]]. exact (NE n b X).
  - rewrite nlen_cons, nlen_nil. lia.
Qed.

(* the continuations handed out *)
Definition same_conts (s s' : dstate) : Prop := d_asked s' = d_asked s /\ d_cmds s' = d_cmds s /\ d_ctxs s' = d_ctxs s.
Definition quiet (o : list dout) : Prop := forall x, In x o -> match x with OAuthorize _ _ | OCommand _ _ | ODataset _ _ => False | _ => True end.

Lemma send_spec : forall n b d sg s s' o x, d_send n b d sg s = (s', o, x) ->
  same_filters s s' /\ same_conts s s' /\ d_streams s' = d_streams s /\ ims_path (d_ims s) o (d_ims s') /\
  (o = [] \/ exists dg, sg = Some dg /\ x = None /\ o = match d with ToFace => [OSent (mkPkt n dg) b] | ToIms => [OKept (mkPkt n dg)] | ToFaceAndIms => [OKept (mkPkt n dg); OSent (mkPkt n dg) b] end).
Proof.
  intros n b d sg s s' o x H. unfold d_send in H. destruct sg as [dg|].
  2:{ injection H as <- <- <-. unfold same_filters, same_conts. splits; auto. apply path_refl; reflexivity. }
  destruct d; [injection H as <- <- <-; unfold same_filters, same_conts; splits; auto; [apply path_refl; reflexivity|right; exists dg; auto]| |];
    destruct (im_insert (mkPkt n dg) true (d_ims s)) as [[m ho]|e] eqn:E; injection H as <- <- <-; unfold same_filters, same_conts; splits; auto;
    try (apply path_refl; reflexivity); try (right; exists dg; auto; fail); cbn [d_ims setIms];
    apply (path_one _ _ _ (IInsert (mkPkt n dg) true) ho); auto; discriminate.
Qed.

(* what an Interest does *)
Lemma handle_spec : forall f q ps s s' o x, d_handle dconv f q ps s = (s', o, x) ->
  same_filters s s' /\ d_streams s' = d_streams s /\ d_cmds s' = d_cmds s /\ d_ctxs s' = d_ctxs s /\ ims_path (d_ims s) o (d_ims s') /\
  (d_asked s' = d_asked s /\ quiet o \/
   let r := mkReq (fr_kind f) (fr_top f) (fr_rel f) q in d_asked s' = d_asked s ++ [r] /\ o = [OAuthorize (List.length (d_asked s)) r] /\ x = None /\
     match fr_kind f with
     | HCommand c => ps = true /\ nlen (fr_top f) + (if c then 2 else nlen (fr_rel f)) < nlen (q_name q)
     | HDataset => endsWithVersionOrSegment dconv (q_name q) = false
     | HStream => False
     end).
Proof.
  intros f q ps s s' o x H. unfold d_handle in H. destruct (fr_kind f) as [c| |] eqn:K.
  - unfold d_parse in H. destruct (nlen (q_name q) <=? nlen (fr_top f) + (if c then 2 else nlen (fr_rel f))) eqn:E.
    + assert (X : (s', o) = (s, [])) by (destruct c; injection H as <- <- <-; reflexivity). injection X as -> ->.
      unfold same_filters. splits; auto; [apply path_refl; reflexivity|]. left. split; auto. intros y [].
    + destruct ps; injection H as <- <- <-; unfold same_filters; splits; auto; try (apply path_refl; reflexivity).
      * right. splits; auto. destruct c; lia.
      * left. split; auto. intros y [].
  - destruct (im_findInterest q (d_ims s)) as [[[m ho] [p|]]|e] eqn:E.
    + injection H as <- <- <-. unfold same_filters; splits; auto.
      * cbn. apply (path_one _ _ _ (IFindInterest q) ho); [cbn; rewrite E; reflexivity|reflexivity|discriminate].
      * left. split; auto. intros y [<-|[]]. exact Logic.I.
    + assert (PA : forall o', kept_of o' = [] -> ims_path (d_ims s) o' m) by (intros o' K0; apply (path_one _ _ _ (IFindInterest q) ho); [cbn; rewrite E; reflexivity|symmetry; exact K0|discriminate]).
      destruct (endsWithVersionOrSegment dconv (q_name q)) eqn:EW; injection H as <- <- <-; (split; [unfold same_filters; splits; reflexivity|]); do 3 (split; [reflexivity|]); (split; [apply PA; reflexivity|]).
      * left. split; auto. intros y [].
      * right. splits; auto.
    + injection H as <- <- <-. unfold same_filters; splits; auto; [apply path_refl; reflexivity|]. left. split; auto. intros y [].
  - destruct (im_findInterest q (d_ims s)) as [[[m ho] [p|]]|e] eqn:E.
    + injection H as <- <- <-. unfold same_filters; splits; auto.
      * cbn. apply (path_one _ _ _ (IFindInterest q) ho); [cbn; rewrite E; reflexivity|reflexivity|discriminate].
      * left. split; auto. intros y [<-|[]]. exact Logic.I.
    + injection H as <- <- <-; unfold same_filters; splits; auto.
      * cbn. apply (path_one _ _ _ (IFindInterest q) ho); [cbn; rewrite E; reflexivity|reflexivity|discriminate].
      * left. split; auto. intros y [].
    + injection H as <- <- <-. unfold same_filters; splits; auto; [apply path_refl; reflexivity|]. left. split; auto. intros y [].
Qed.

Definition entries (e : devent) (o : list dout) (x : option err) : history := [(e, o, x)].
Lemma outputs_app : forall a b, outputs (a ++ b) = outputs a ++ outputs b.
Proof. intros a b. unfold outputs. rewrite map_app, concat_app. reflexivity. Qed.
Lemma outputs_snoc : forall h e o x, outputs (h ++ [(e, o, x)]) = outputs h ++ o.
Proof. intros h e o x. rewrite outputs_app. cbn. now rewrite app_nil_r. Qed.
Lemma tops_snoc : forall h e, tops_of (h ++ [e]) = upd_tops (tops_of h) e.
Proof. intros h e. unfold tops_of. rewrite fold_left_app. reflexivity. Qed.
Lemma handlers_snoc : forall h e, handlers_of (h ++ [e]) = upd_handlers (handlers_of h) e.
Proof. intros h e. unfold handlers_of. rewrite fold_left_app. reflexivity. Qed.

(* how a step changes the continuations *)
Inductive conts (s s' : dstate) : list dout -> Prop :=
| co_same : forall o, same_conts s s' -> quiet o -> conts s s' o
| co_ask : forall r, d_asked s' = d_asked s ++ [r] -> d_cmds s' = d_cmds s -> d_ctxs s' = d_ctxs s -> conts s s' [OAuthorize (List.length (d_asked s)) r]
| co_cmd : forall r, d_asked s' = d_asked s -> d_cmds s' = d_cmds s ++ [r] -> d_ctxs s' = d_ctxs s -> conts s s' [OCommand (List.length (d_cmds s)) r]
| co_ctx : forall r, d_asked s' = d_asked s -> d_cmds s' = d_cmds s -> d_ctxs s' = d_ctxs s ++ [r] -> conts s s' [ODataset (List.length (d_ctxs s)) r].
Lemma same_refl : forall s, same_conts s s. Proof. intro s. unfold same_conts. auto. Qed.
Lemma quiet_nil : quiet []. Proof. intros x []. Qed.
Local Hint Resolve same_refl quiet_nil co_same : core.

Lemma send_quiet : forall n b d sg s s' o x, d_send n b d sg s = (s', o, x) -> conts s s' o.
Proof.
  intros n b d sg s s' o x H. destruct (send_spec _ _ _ _ _ _ _ _ H) as (_ & A & _ & _ & [->|(dg & _ & _ & ->)]); apply co_same; auto.
  destruct d; intros y Hy; cbn in Hy; intuition (subst; exact Logic.I).
Qed.
Lemma step_conts : forall e s s' o x, FInv s -> d_step conv dconv e s = (s', o, x) -> conts s s' o.
Proof.
  intros e s s' o x I H. destruct e; cbn [d_step] in H.
  - unfold d_addTop in H. destruct (existsb _ _); injection H as <- <- _; apply co_same; auto; unfold same_conts; auto.
  - unfold d_removeTop in H. injection H as <- <- _; apply co_same; auto; unfold same_conts; auto.
  - unfold d_addHandler in H. destruct (d_checkPrefix r s); injection H as <- <- _; apply co_same; auto; destruct k; unfold same_conts; auto.
  - unfold d_task in H. destruct (d_posted s) as [|[f|i] l]; injection H as <- <- _; apply co_same; auto; unfold same_conts; auto.
  - destruct (dispatch_cases (d_table s) q parses s (tables_head _ _ _ (fi_tables _ I))) as [[_ E]|(f & _ & _ & E)]; rewrite E in H.
    + injection H as <- <- _. auto.
    + destruct (handle_spec _ _ _ _ _ _ _ H) as (_ & _ & A & B & _ & [[C D]|(C & -> & _)]); [apply co_same; auto; unfold same_conts; auto|]. apply co_ask; auto.
  - unfold d_accept in H. destruct (nth_error (d_asked s) i) as [r|]; [|injection H as <- <- _; auto]. destruct (rq_kind r).
    + destruct valid; [|exact (send_quiet _ _ _ _ _ _ _ _ H)]. injection H as <- <- _. apply co_cmd; auto.
    + injection H as <- <- _. apply co_ctx; auto.
    + injection H as <- <- _. apply co_ctx; auto.
  - unfold d_reject in H. destruct (nth_error (d_asked s) i) as [r|]; [|injection H as <- <- _; auto]. destruct reply; [|injection H as <- <- _; auto]. exact (send_quiet _ _ _ _ _ _ _ _ H).
  - unfold d_done in H. destruct (nth_error (d_cmds s) c) as [r|]; [|injection H as <- <- _; auto]. exact (send_quiet _ _ _ _ _ _ _ _ H).
  - unfold d_context in H. destruct (nth_error (d_ctxs s) c) as [r|]; [|injection H as <- <- _; auto]. destruct e as [n ct fin|resp]; [|exact (send_quiet _ _ _ _ _ _ _ _ H)].
    destruct (nm_get (-1) n); [|injection H as <- <- _; auto]. destruct (toKind _ _ _); [|injection H as <- <- _; auto]. exact (send_quiet _ _ _ _ _ _ _ _ H).
  - unfold d_post in H. destruct (negb _); [injection H as <- <- _; auto|]. destruct (d_tops s) as [|[t is] [|]]; try (injection H as <- <- _; auto; fail).
    destruct (fromKind _ _ _); [|injection H as <- <- _; apply co_same; auto; unfold same_conts; auto]. apply send_quiet in H. inversion H; subst; [apply co_same; auto| | |];
      [apply (co_ask s s' r0)|apply (co_cmd s s' r0)|apply (co_ctx s s' r0)]; auto.
  - injection H as <- <- _. apply co_same; auto; unfold same_conts; auto.
Qed.
Lemma step_path : forall e s s' o x, FInv s -> d_step conv dconv e s = (s', o, x) -> ims_path (d_ims s) o (d_ims s').
Proof.
  intros e s s' o x I H. assert (N : forall m, ims_path m [] m) by (intro m; apply path_refl; reflexivity).
  assert (SD : forall n b d sg s s' o x, d_send n b d sg s = (s', o, x) -> ims_path (d_ims s) o (d_ims s')) by (intros n0 b0 d0 sg0 s0 s1 o0 x0 H0; apply send_spec in H0; apply H0).
  destruct e; cbn [d_step] in H.
  - unfold d_addTop in H. destruct (existsb _ _); injection H as <- <- _; apply N.
  - unfold d_removeTop in H. injection H as <- <- _; apply N.
  - unfold d_addHandler in H. destruct (d_checkPrefix r s); injection H as <- <- _; destruct k; apply N.
  - unfold d_task in H. destruct (d_posted s) as [|[f|i] l]; injection H as <- <- _; apply N.
  - destruct (dispatch_cases (d_table s) q parses s (tables_head _ _ _ (fi_tables _ I))) as [[_ E]|(f & _ & _ & E)]; rewrite E in H; [injection H as <- <- _; apply N|].
    apply handle_spec in H. apply H.
  - unfold d_accept in H. destruct (nth_error (d_asked s) i) as [r|]; [|injection H as <- <- _; apply N]. destruct (rq_kind r);
      [destruct valid; [|exact (SD _ _ _ _ _ _ _ _ H)]| |]; injection H as <- <- _; apply path_refl; reflexivity.
  - unfold d_reject in H. destruct (nth_error (d_asked s) i) as [r|]; [|injection H as <- <- _; apply N]. destruct reply; [|injection H as <- <- _; apply N]. exact (SD _ _ _ _ _ _ _ _ H).
  - unfold d_done in H. destruct (nth_error (d_cmds s) c) as [r|]; [|injection H as <- <- _; apply N]. exact (SD _ _ _ _ _ _ _ _ H).
  - unfold d_context in H. destruct (nth_error (d_ctxs s) c) as [r|]; [|injection H as <- <- _; apply N]. destruct e as [n ct fin|resp]; [|exact (SD _ _ _ _ _ _ _ _ H)].
    destruct (nm_get (-1) n); [|injection H as <- <- _; apply N]. destruct (toKind _ _ _); [|injection H as <- <- _; apply N]. exact (SD _ _ _ _ _ _ _ _ H).
  - unfold d_post in H. destruct (negb _); [injection H as <- <- _; apply N|]. destruct (d_tops s) as [|[t is] [|]]; try (injection H as <- <- _; apply N; fail).
    destruct (fromKind _ _ _); [|injection H as <- <- _; apply N]. exact (SD _ _ _ _ _ _ _ _ H).
  - injection H as <- <- _. apply (path_one _ _ _ (IStale e) []); [reflexivity|reflexivity|discriminate].
Qed.

(* the events other than those that register something leave the filters alone *)
Definition registers (e : devent) : bool := match e with DAddTop _ | DRemoveTop _ | DAddHandler _ _ | DTask => true | _ => false end.
Lemma step_filters : forall e s s' o x, FInv s -> d_step conv dconv e s = (s', o, x) -> registers e = false -> same_filters s s'.
Proof.
  intros e s s' o x I H R. assert (N : forall s, same_filters s s) by (intro; unfold same_filters; auto).
  assert (SD : forall n b d sg s s' o x, d_send n b d sg s = (s', o, x) -> same_filters s s') by (intros n0 b0 d0 sg0 s0 s1 o0 x0 H0; apply send_spec in H0; apply H0).
  destruct e; cbn [d_step] in H; try discriminate.
  - destruct (dispatch_cases (d_table s) q parses s (tables_head _ _ _ (fi_tables _ I))) as [[_ E]|(f & _ & _ & E)]; rewrite E in H; [injection H as <- <- _; (unfold same_filters; splits; reflexivity)|].
    apply handle_spec in H. apply H.
  - unfold d_accept in H. destruct (nth_error (d_asked s) i) as [r|]; [|injection H as <- <- _; (unfold same_filters; splits; reflexivity)]. destruct (rq_kind r);
      [destruct valid; [|exact (SD _ _ _ _ _ _ _ _ H)]| |]; injection H as <- <- _; (unfold same_filters; splits; reflexivity).
  - unfold d_reject in H. destruct (nth_error (d_asked s) i) as [r|]; [|injection H as <- <- _; (unfold same_filters; splits; reflexivity)]. destruct reply; [|injection H as <- <- _; (unfold same_filters; splits; reflexivity)]. exact (SD _ _ _ _ _ _ _ _ H).
  - unfold d_done in H. destruct (nth_error (d_cmds s) c) as [r|]; [|injection H as <- <- _; (unfold same_filters; splits; reflexivity)]. exact (SD _ _ _ _ _ _ _ _ H).
  - unfold d_context in H. destruct (nth_error (d_ctxs s) c) as [r|]; [|injection H as <- <- _; (unfold same_filters; splits; reflexivity)]. destruct e as [n ct fin|resp]; [|exact (SD _ _ _ _ _ _ _ _ H)].
    destruct (nm_get (-1) n); [|injection H as <- <- _; (unfold same_filters; splits; reflexivity)]. destruct (toKind _ _ _); [|injection H as <- <- _; (unfold same_filters; splits; reflexivity)]. exact (SD _ _ _ _ _ _ _ _ H).
  - unfold d_post in H. destruct (negb _); [injection H as <- <- _; (unfold same_filters; splits; reflexivity)|]. destruct (d_tops s) as [|[t is] [|]] eqn:ET; try (injection H as <- <- _; (unfold same_filters; splits; reflexivity); fail).
    destruct (fromKind _ _ _); [|injection H as <- <- _; (unfold same_filters; splits; reflexivity)]. apply SD in H. exact H.
  - injection H as <- <- _. (unfold same_filters; splits; reflexivity).
Qed.
Lemma step_FInv : forall e s s' o x, FInv s -> d_step conv dconv e s = (s', o, x) -> FInv s'.
Proof.
  intros e s s' o x I H. destruct (registers e) eqn:R; [|exact (FInv_same _ _ I (step_filters _ _ _ _ _ I H R))].
  destruct e; try discriminate; cbn [d_step] in H;
    [exact (addTop_FInv _ _ _ _ _ I H)|exact (removeTop_FInv _ _ _ _ _ I H)|exact (addHandler_FInv _ _ _ _ _ _ I H)|exact (task_FInv _ _ _ _ I H)].
Qed.

(* ---- the invariant ---- *)
Definition was_in_force (h : history) (f : frec) : Prop := exists h1 h2, h = h1 ++ h2 /\ in_force h1 (fr_top f) (fr_rel f) (fr_kind f).
Record DInv (L : N) (h : history) (s : dstate) : Prop := mkDI {
  di_f : FInv s;
  di_tops : map fst (d_tops s) = tops_of h;
  di_handlers : d_handlers s = handlers_of h;
  di_was : tables (fun T => forall f, In f T -> was_in_force h f) (d_table s) (d_posted s);
  di_asked : forall i r, In (OAuthorize i r) (outputs h) <-> nth_error (d_asked s) i = Some r;
  di_cmds : forall i r, In (OCommand i r) (outputs h) <-> nth_error (d_cmds s) i = Some r;
  di_ctxs : forall i r, In (ODataset i r) (outputs h) <-> nth_error (d_ctxs s) i = Some r;
  di_kinds : forall r, In r (d_asked s) -> rq_kind r <> HStream;
  di_ims : exists ops ho, reached FIFO true L ops (d_ims s) ho /\ nlen ops <= nlen h /\ inserted ops = kept_of (outputs h) /\ no_erase ops
}.
Lemma DInv_init : forall L, DInv L [] (d_init L).
Proof.
  intro L. constructor.
  - apply FInv_init.
  - reflexivity.
  - reflexivity.
  - cbn. split; auto. intros f [].
  - intros i r. split; [intros []|]. destruct i; discriminate.
  - intros i r. split; [intros []|]. destruct i; discriminate.
  - intros i r. split; [intros []|]. destruct i; discriminate.
  - intros r [].
  - exists [], []. splits; auto; [reflexivity|vm_compute; discriminate|]. intros n b [].
Qed.
Lemma was_mono : forall h e f, was_in_force h f -> was_in_force (h ++ [e]) f.
Proof. intros h e f (h1 & h2 & -> & F). exists h1, (h2 ++ [e]). split; [now rewrite app_assoc|exact F]. Qed.
Lemma nth_snoc : forall A (l : list A) r i x, nth_error (l ++ [r]) i = Some x <-> nth_error l i = Some x \/ i = List.length l /\ x = r.
Proof.
  intros A l r i x. destruct (Nat.lt_ge_cases i (List.length l)) as [Q|Q].
  - rewrite nth_error_app1 by exact Q. split; auto. intros [H|[H _]]; auto. lia.
  - rewrite nth_error_app2 by exact Q. destruct (i - List.length l)%nat as [|k] eqn:E; cbn.
    + assert (i = List.length l) by lia. subst. split; [intro H; injection H as <-; auto|]. intros [H|[_ ->]]; auto. assert (nth_error l (List.length l) <> None) by congruence. apply nth_error_Some in H0. lia.
    + split; [destruct k; discriminate|]. intros [H|[H _]]; [|lia]. assert (nth_error l i <> None) by congruence. apply nth_error_Some in H0. lia.
Qed.
Lemma kept_app : forall a b, kept_of (a ++ b) = kept_of a ++ kept_of b.
Proof. intros a b. unfold kept_of. rewrite map_app, concat_app. reflexivity. Qed.
Lemma run_app : forall a b m m1 m2 h1 h2, im_run a m = Ok (m1, h1) -> im_run b m1 = Ok (m2, h2) -> im_run (a ++ b) m = Ok (m2, h1 ++ h2).
Proof.
  induction a as [|o a IH]; intros b m m1 m2 h1 h2 A B; cbn in *; [injection A as -> <-; exact B|].
  destruct (im_step o m) as [[m' h']|e]; [|discriminate]. cbn [bind fst snd] in *. destruct (im_run a m') as [[m'' h'']|e] eqn:E; [|discriminate]. cbn [bind fst snd] in A. injection A as -> <-.
  rewrite (IH _ _ _ _ _ _ E B). cbn. now rewrite app_assoc.
Qed.
Lemma path_extend : forall L s s' o h (e : entry), outs e = o -> (exists ops ho, reached FIFO true L ops (d_ims s) ho /\ nlen ops <= nlen h /\ inserted ops = kept_of (outputs h) /\ no_erase ops) ->
  ims_path (d_ims s) o (d_ims s') ->
  exists ops ho, reached FIFO true L ops (d_ims s') ho /\ nlen ops <= nlen (h ++ [e]) /\ inserted ops = kept_of (outputs (h ++ [e])) /\ no_erase ops.
Proof.
  intros L s s' o h e <- (ops & ho & A & B & C & D) (ops2 & ho2 & A2 & C2 & D2 & B2). exists (ops ++ ops2), (ho ++ ho2). splits.
  - unfold reached in *. exact (run_app _ _ _ _ _ _ _ A A2).
  - rewrite !nlen_app. rewrite nlen_cons, nlen_nil. lia.
  - unfold inserted. rewrite map_app, concat_app. fold (inserted ops) (inserted ops2). rewrite C, C2, outputs_app, kept_app. cbn. now rewrite app_nil_r.
  - intros n b X. apply in_app_or in X as [X|X]; [exact (D _ _ X)|exact (D2 _ _ X)].
Qed.
End D.
