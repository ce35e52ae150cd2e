From Coq Require Import ZArith SpecFloat Lia ZifyBool ZifyNat ZifyN.
From Verif Require Import Base BaseLemmas M_Tlv M_Name M_Packet M_Rtt M_Fetcher S_Fetcher.
Open Scope N_scope.

(* ---- maps ---- *)
Lemma mget_insert : forall A k v (m : list (N * A)) k', mget k' (minsert k v m) = if k' =? k then Some v else mget k' m.
Proof.
  intros A k v m k'. induction m as [|[x y] m IH]; cbn.
  - destruct (k' =? k); auto.
  - destruct (N.eqb_spec k x) as [->|N1]; cbn.
    + destruct (k' =? x); auto.
    + destruct (k <? x); cbn.
      * destruct (N.eqb_spec k' k); auto.
      * rewrite IH. destruct (N.eqb_spec k' x) as [->|]; auto. destruct (N.eqb_spec x k); auto. congruence.
Qed.
Lemma mget_remove : forall A k (m : list (N * A)) k', mget k' (mremove k m) = if k' =? k then None else mget k' m.
Proof.
  intros A k m k'. unfold mremove. induction m as [|[x y] m IH]; cbn.
  - destruct (k' =? k); auto.
  - destruct (N.eqb_spec x k) as [->|N1]; cbn; rewrite IH.
    + destruct (N.eqb_spec k' k); auto.
    + destruct (N.eqb_spec k' x) as [->|]; auto. apply N.eqb_neq in N1. now rewrite N1.
Qed.
Lemma in_sinsert : forall k l x, In x (sinsert k l) <-> x = k \/ In x l.
Proof.
  intros k l x. unfold sinsert. destruct (existsb (N.eqb k) l) eqn:E; [|cbn; split; intros [H|H]; auto].
  apply existsb_exists in E as (y & I & Q). apply N.eqb_eq in Q. subst y. split; auto. intros [->|]; auto.
Qed.
Lemma existsb_eqb : forall i l, existsb (N.eqb i) l = true <-> In i l.
Proof.
  intros i l. rewrite existsb_exists. split.
  - intros (x & I & E). apply N.eqb_eq in E. now subst.
  - intro I. exists i. split; auto. apply N.eqb_refl.
Qed.
Lemma in_nseqN : forall n i, In i (nseqN n) <-> i < n.
Proof.
  intros n i. unfold nseqN. rewrite in_map_iff. split.
  - intros (k & <- & I). apply in_seq in I. lia.
  - intro L. exists (N.to_nat i). split; [lia|]. apply in_seq. lia.
Qed.

Section F.
Variable conv dconv : convention.
Variable o : fopts.

(* ---- what the helper functions leave alone ---- *)
Definition noise (ob : fobs) : Prop := match ob with OInterest _ _ _ _ | OStop => True | _ => False end.
Definition hushed (ob : fobs) : Prop := match ob with OInterest _ _ _ _ => True | _ => False end.
Lemma hushed_noise : forall l, Forall hushed l -> Forall noise l.
Proof. intros l F. eapply Forall_impl; [|exact F]. intros [ ]; cbn; tauto. Qed.
Definition quiet (s s' : fetcher) : Prop :=
  fs_buf s' = fs_buf s /\ fs_recv s' = fs_recv s /\ fs_nextOrd s' = fs_nextOrd s /\ fs_vals s' = fs_vals s /\ fs_tlast s' = fs_tlast s /\
  fs_this s' = fs_this s /\ exists l, fs_log s' = fs_log s ++ l /\ Forall hushed l.
Lemma quiet_refl : forall s, quiet s s.
Proof. intro s. unfold quiet. splits; auto. exists []. now rewrite app_nil_r. Qed.
Lemma quiet_trans : forall a b c, quiet a b -> quiet b c -> quiet a c.
Proof.
  intros a b c (A1 & A2 & A3 & A4 & A5 & A6 & l & L1 & L2) (B1 & B2 & B3 & B4 & B5 & B6 & m & M1 & M2). unfold quiet.
  splits; try congruence; auto. exists (l ++ m). rewrite M1, L1, app_assoc. split; auto. apply Forall_app. auto.
Qed.
Lemma quiet_same : forall s s', fs_buf s' = fs_buf s -> fs_recv s' = fs_recv s -> fs_nextOrd s' = fs_nextOrd s -> fs_vals s' = fs_vals s -> fs_tlast s' = fs_tlast s ->
  fs_this s' = fs_this s -> fs_log s' = fs_log s -> quiet s s'.
Proof. intros. unfold quiet. splits; auto. exists []. now rewrite app_nil_r. Qed.
Lemma stop_this : forall s, fs_this (fs_stop s) = false.
Proof. intro s. unfold fs_stop. destruct (fs_this s) eqn:E; auto. Qed.
Lemma quiet_send : forall seg n c m r s s', fs_send seg n c m r s = Ok s' -> quiet s s' /\ fs_nseg s' = fs_nseg s /\ fs_this s' = fs_this s.
Proof.
  intros seg n c m r s s' H. unfold fs_send in H.
  assert (Q : forall l, quiet s (wLog (fs_log s ++ [OInterest (length (fs_reqs s)) n c m]) (wReqs l (wInfl (fs_infl s + 1)%Z s)))).
  { intro l. unfold quiet. cbn. splits; auto. eexists. split; [reflexivity|]. constructor; cbn; auto. }
  destruct r.
  - unfold fs_updateRetx in H. cbn [fs_pend wLog wReqs wInfl] in H. destruct (mget seg (fs_pend s)) as [p|]; [|discriminate].
    destruct (ps_state p); try discriminate. injection H as <-. split; [|auto]. eapply quiet_trans; [apply (Q (fs_reqs s ++ [n]))|]. apply quiet_same; auto.
  - destruct (mget seg _) as [p|]; [discriminate|]. injection H as <-. split; [|auto]. eapply quiet_trans; [apply (Q (fs_reqs s ++ [n]))|]. apply quiet_same; auto.
Qed.
Lemma quiet_sendAll : forall l s s', fs_sendAll conv l s = Ok s' -> quiet s s' /\ fs_nseg s' = fs_nseg s /\ fs_this s' = fs_this s.
Proof.
  induction l as [|[seg r] l IH]; intros s s' H; cbn [fs_sendAll] in H; [injection H as <-; split; [apply quiet_refl|auto]|].
  destruct (fromKind conv KSegment seg) as [c|]; cbn [bind] in H; [|discriminate].
  destruct (fs_send _ _ _ _ _ s) as [s1|] eqn:E; cbn [bind] in H; [|discriminate].
  apply quiet_send in E as (Q1 & N1 & T1). apply IH in H as (Q2 & N2 & T2). split; [eapply quiet_trans; eauto|]. split; congruence.
Qed.
Lemma quiet_winInc : forall s s', fs_winInc o s = Ok s' -> quiet s s' /\ fs_nseg s' = fs_nseg s /\ fs_this s' = fs_this s.
Proof.
  intros s s' H. unfold fs_winInc in H. destruct (fo_constCwnd o).
  - destruct (SFeqb _ _); [|discriminate]. injection H as <-. split; [apply quiet_refl|auto].
  - destruct (SFltb _ _); injection H as <-; (split; [apply quiet_same; auto|auto]).
Qed.
Lemma quiet_winDec : forall s s', fs_winDec o s = Ok s' -> quiet s s' /\ fs_nseg s' = fs_nseg s /\ fs_this s' = fs_this s.
Proof.
  intros s s' H. unfold fs_winDec in H. destruct (fo_disableCwa o || (fs_rec s <? fs_highData s)); [|injection H as <-; split; [apply quiet_refl|auto]].
  destruct (fo_constCwnd o).
  - destruct (SFeqb _ _); [|discriminate]. injection H as <-. split; [apply quiet_same; auto|auto].
  - injection H as <-. split; [apply quiet_same; auto|auto].
Qed.
Lemma quiet_excess : forall s s', fs_cancelExcess s = Ok s' -> quiet s s' /\ fs_nseg s' = fs_nseg s /\ fs_this s' = fs_this s.
Proof.
  intros s s' H. unfold fs_cancelExcess in H. destruct (_ <? _)%Z; [discriminate|]. injection H as <-. split; [apply quiet_same; auto|auto].
Qed.
(* the end of a fetch *)
Definition ends hs (t : fobs) (s s' : fetcher) : Prop := exists s1, quiet s s1 /\ fs_nseg s1 = fs_nseg s /\ fs_this s1 = fs_this s /\ s' = fs_stop (fs_fire hs t s1).
Lemma missing_nil : forall s, filter (fun i => negb (existsb (N.eqb i) (fs_recv s))) (nseqN (toU64 (fs_nseg s))) = [] -> forall i, i < toU64 (fs_nseg s) -> In i (fs_recv s).
Proof.
  intros s H i L. destruct (existsb (N.eqb i) (fs_recv s)) eqn:E; [now apply existsb_eqb|].
  assert (X : In i (filter (fun i => negb (existsb (N.eqb i) (fs_recv s))) (nseqN (toU64 (fs_nseg s))))).
  { apply filter_In. split; [now apply in_nseqN|]. now rewrite E. }
  rewrite H in X. destruct X.
Qed.
Lemma window_cases : forall hs s s', fs_window conv o hs s = Ok s' ->
  (quiet s s' /\ fs_nseg s' = fs_nseg s /\ fs_this s' = fs_this s) \/
  ((0 <> fs_nseg s)%Z /\ (forall i, i < toU64 (fs_nseg s) -> In i (fs_recv s)) /\
   exists t, ends hs t s s' /\
     ((fo_inOrder o = true /\ t = OInOrderComplete) \/
      (fo_inOrder o = false /\ t = OComplete (concat (map (fun i => match mget i (fs_buf s) with Some v => v | None => [] end) (nseqN (Z.to_N (fs_nseg s)))))))).
Proof.
  intros hs s s' H. unfold fs_window in H.
  destruct (fs_checkAll s) as [all s1] eqn:C.
  assert (Q : quiet s s1 /\ fs_nseg s1 = fs_nseg s /\ fs_this s1 = fs_this s /\ (all = true -> (0 <> fs_nseg s)%Z /\ forall i, i < toU64 (fs_nseg s) -> In i (fs_recv s))).
  { unfold fs_checkAll in C. destruct (negb (fs_nseg s =? 0)%Z && _) eqn:E.
    - injection C as A <-. split; [apply quiet_same; auto|]. splits; auto. intros ->. split; [lia|].
      apply missing_nil. destruct (filter _ _); auto. discriminate.
    - injection C as <- <-. split; [apply quiet_refl|]. splits; auto; discriminate. }
  destruct Q as (Q & N1 & T1 & A). destruct all.
  - right. destruct (A eq_refl) as [A1 A2]. split; auto. split; auto. unfold fs_finalize in H.
    destruct (fo_inOrder o) eqn:Io.
    + injection H as <-. exists OInOrderComplete. split; [exists s1; auto|auto].
    + destruct (_ <? _); [discriminate|]. injection H as <-. eexists. split; [exists s1; splits; auto|].
      right. split; auto. destruct Q as (Qb & _). now rewrite Qb, N1.
  - left. destruct (f2i (fs_cwnd s1)) as [w|]; cbn [bind] in H; [|discriminate].
    destruct (fs_pick _ _ _ _ _ _) as [r|]; cbn [bind] in H; [|discriminate].
    apply quiet_sendAll in H as (Q2 & N2 & T2). cbn in N2, T2. split; [|split; congruence].
    eapply quiet_trans; [exact Q|]. eapply quiet_trans; [|exact Q2]. apply quiet_same; auto.
Qed.

(* ---- C46: the shape of what a step emits ---- *)
Definition J (s : fetcher) : Prop := In OStop (fs_log s) <-> fs_this s = false.
Definition strict (hs : fobs -> bool) : Prop := forall ob, hs ob = true -> may_stop ob = true.
Definition calm (hs : fobs -> bool) (s s' : fetcher) : Prop :=
  (fs_this s' = true -> fs_this s = true) /\ (exists l, fs_log s' = fs_log s ++ l /\ Forall (fun ob => terminal ob = false) l) /\
  (J s -> J s') /\ (strict hs -> fs_this s' = fs_this s).
Lemma calm_refl : forall hs s, calm hs s s.
Proof. intros hs s. unfold calm. splits; auto. exists []. now rewrite app_nil_r. Qed.
Lemma calm_trans : forall hs a b c, calm hs a b -> calm hs b c -> calm hs a c.
Proof.
  intros hs a b c (A1 & (l & L1 & L2) & A3 & A4) (B1 & (m & M1 & M2) & B3 & B4). unfold calm. splits; auto.
  - exists (l ++ m). rewrite M1, L1, app_assoc. split; auto. apply Forall_app. auto.
  - intro X. rewrite B4, A4; auto.
Qed.
Lemma J_app : forall s s' l, fs_log s' = fs_log s ++ l -> ~ In OStop l -> fs_this s' = fs_this s -> J s -> J s'.
Proof. intros s s' l L N T. unfold J. rewrite L, T, in_app_iff. tauto. Qed.
Lemma calm_quiet : forall hs s s', quiet s s' -> calm hs s s'.
Proof.
  intros hs s s' (_ & _ & _ & _ & _ & T & l & L & F). unfold calm. splits; auto; [congruence| |].
  - exists l. split; auto. eapply Forall_impl; [|exact F]. intros [ ] N; cbn in *; tauto.
  - eapply J_app; eauto. intro I. rewrite Forall_forall in F. apply (F _ I).
Qed.
Lemma calm_same : forall hs s s', fs_this s' = fs_this s -> fs_log s' = fs_log s -> calm hs s s'.
Proof.
  intros hs s s' T L. unfold calm. splits; auto; [congruence| |].
  - exists []. rewrite app_nil_r. auto.
  - unfold J. now rewrite L, T.
Qed.
Lemma calm_fire : forall hs ob s, may_stop ob = false -> ob <> OStop -> calm hs s (fs_fire hs ob s).
Proof.
  intros hs ob s T N. unfold fs_fire. set (s1 := wLog _ s).
  assert (TT : terminal ob = false) by (destruct ob; auto; discriminate).
  assert (C : calm hs s s1).
  { unfold calm. splits; auto.
    - exists [ob]. split; auto.
    - apply J_app with [ob]; auto. cbn. intros [X|[]]. congruence. }
  destruct (hs ob) eqn:H; auto. eapply calm_trans; [exact C|]. unfold fs_stop. destruct (fs_this s1) eqn:E; [|apply calm_refl].
  unfold calm. splits; cbn; try discriminate.
  - exists [OStop]. split; auto.
  - intros _. unfold J. cbn. rewrite in_app_iff. cbn. tauto.
  - intro X. apply X in H. congruence.
Qed.
(* a step either goes on, or emits the signal that ends the fetch, or is stopped from outside or in the handler of afterSegmentReceived *)
Definition shape (hs : fobs -> bool) (s s' : fetcher) : Prop :=
  calm hs s s' \/ (exists s1 t, calm hs s s1 /\ terminal t = true /\ s' = fs_stop (fs_fire hs t s1)) \/
  (exists s1 x, calm hs s s1 /\ (x = [] \/ exists d, x = [OReceived d]) /\
     ((fs_this s' = fs_this s1 /\ fs_log s' = fs_log s1 ++ x) \/ (fs_this s1 = true /\ fs_this s' = false /\ fs_log s' = (fs_log s1 ++ x) ++ [OStop]))).
Lemma shape_pre : forall hs a b c, calm hs a b -> shape hs b c -> shape hs a c.
Proof.
  intros hs a b c C [S|[(s1 & t & C1 & T & ->)|(s1 & x & C1 & T)]]; [left; eapply calm_trans; eauto| |].
  - right. left. exists s1, t. split; auto. eapply calm_trans; eauto.
  - right. right. exists s1, x. split; auto. eapply calm_trans; eauto.
Qed.
Lemma window_shape : forall hs s s', fs_window conv o hs s = Ok s' -> shape hs s s'.
Proof.
  intros hs s s' H. apply window_cases in H as [(Q & _)|(_ & _ & t & (s1 & Q & _ & _ & ->) & T)]; [left; now apply calm_quiet|].
  right. left. exists s1, t. splits; auto; [now apply calm_quiet|]. destruct T as [[_ ->]|[_ ->]]; reflexivity.
Qed.
Lemma error_shape : forall hs c s, shape hs s (fs_error hs c s).
Proof. intros hs c s. right. left. exists s, (OError c). split; [apply calm_refl|]. split; auto. Qed.
Lemma deliver_calm : forall hs fuel s s', fs_deliver hs fuel s = Ok s' -> calm hs s s'.
Proof.
  intros hs. induction fuel as [|k IH]; intros s s' H; cbn [fs_deliver] in H; [discriminate|].
  match type of H with context [fs_fire hs ?ob s] => set (s1 := fs_fire hs ob s) in *; assert (C1 : calm hs s s1) by (apply calm_fire; [reflexivity|discriminate]) end.
  match type of H with context [wBuf ?b ?n s1] => set (s2 := wBuf b n s1) in * end.
  assert (C2 : calm hs s s2) by (eapply calm_trans; [exact C1|apply calm_same; auto]).
  destruct (mget (fs_nextOrd s2) (fs_buf s2)); [apply IH in H; eapply calm_trans; eauto|]. now injection H as <-.
Qed.
Lemma data_shape : forall hs d m s s', fs_data dconv hs d m s = Ok s' -> shape hs s s'.
Proof.
  intros hs d m s s' H. unfold fs_data in H. destruct (negb (fs_this s)); [injection H as <-; left; apply calm_refl|].
  destruct (_ <=? _)%Z; [discriminate|]. destruct (nm_last (d_name d)) as [c|]; [|discriminate].
  destruct (negb (isKind dconv KSegment c)).
  { injection H as <-. eapply shape_pre; [|apply error_shape]. apply calm_same; auto. }
  destruct (toKind dconv KSegment c) as [cur|]; cbn [bind] in H; [|discriminate].
  match type of H with (match ?X with Some _ => _ | None => _ end) = _ => destruct X as [[k p]|] end.
  - injection H as <-. right. right. match goal with |- context [fs_fire hs _ ?X] => set (s1 := X) in * end.
    exists s1, [OReceived d]. split; [apply calm_same; auto|]. split; [eauto|]. unfold fs_fire. destruct (hs (OReceived d)); [|left; split; reflexivity].
    unfold fs_stop. cbn [fs_this wLog]. destruct (fs_this s1) eqn:E; [right; splits; auto|]. left. splits; auto.
  - injection H as <-. left. apply calm_same; auto.
Qed.
Lemma retry_shape : forall hs n now s s', fs_retry conv dconv o hs n now s = Ok s' -> shape hs s s'.
Proof.
  intros hs n now s s' H. unfold fs_retry in H. destruct (_ <=? now)%Z; [injection H as <-; apply error_shape|].
  destruct (fs_pend s) as [|f l] eqn:P; [discriminate|].
  match type of H with bind ?X _ = _ => destruct X as [kp|] end; cbn [bind] in H; [|discriminate].
  match type of H with context [fs_recv (wPend ?X s)] => set (s1 := wPend X s) in * end.
  assert (C1 : calm hs s s1) by (apply calm_same; auto). eapply shape_pre; [exact C1|].
  destruct (fs_recv s1).
  - unfold fs_first in H. apply quiet_send in H as (Q & _). left. now apply calm_quiet.
  - destruct (fs_winDec o s1) as [s2|] eqn:W; cbn [bind] in H; [|discriminate]. apply quiet_winDec in W as (Q & _).
    eapply shape_pre; [apply calm_quiet; exact Q|]. eapply shape_pre; [|eapply window_shape; exact H]. apply calm_same; auto.
Qed.
Lemma nack_shape : forall hs n r now s s', fs_nack conv dconv o hs n r now s = Ok s' -> shape hs s s'.
Proof.
  intros hs n r now s s' H. unfold fs_nack in H. destruct (negb (fs_this s)); [injection H as <-; left; apply calm_refl|].
  set (s1 := fs_fire hs ONacked s) in *. assert (C1 : calm hs s s1) by (apply calm_fire; [reflexivity|discriminate]).
  destruct (_ <=? _)%Z; [discriminate|]. assert (C2 : calm hs s (wInfl (fs_infl s1 - 1)%Z s1)) by (eapply calm_trans; [exact C1|apply calm_same; auto]).
  destruct ((r =? 50) || (r =? 100)).
  - eapply shape_pre; [exact C2|]. eapply retry_shape; eauto.
  - injection H as <-. eapply shape_pre; [exact C2|]. apply error_shape.
Qed.
Lemma timeout_shape : forall hs n now s s', fs_timeout conv dconv o hs n now s = Ok s' -> shape hs s s'.
Proof.
  intros hs n now s s' H. unfold fs_timeout in H. destruct (negb (fs_this s)); [injection H as <-; left; apply calm_refl|].
  set (s1 := fs_fire hs OTimedOut s) in *. assert (C1 : calm hs s s1) by (apply calm_fire; [reflexivity|discriminate]).
  destruct (_ <=? _)%Z; [discriminate|]. assert (C2 : calm hs s (wInfl (fs_infl s1 - 1)%Z s1)) by (eapply calm_trans; [exact C1|apply calm_same; auto]).
  eapply shape_pre; [exact C2|]. eapply retry_shape; eauto.
Qed.

(* ---- the steps of afterValidationSuccess ---- *)
Definition vbuf (cur : N) (d : data) (s : fetcher) : res bytes :=
  match mget cur (fs_buf s) with Some old => overlay (c_val (d_content d)) old | None => Ok (c_val (d_content d)) end.
Definition vstart (cur : N) (now : Z) (v : bytes) (k : N) (s : fetcher) : fetcher :=
  wBuf (minsert cur v (fs_buf s)) (fs_nextOrd s) (wPend (mremove k (fs_pend s)) (wNrecv (fs_nrecv s + 1)%Z (sinsert cur (fs_recv s)) (wTlast now s))).
Definition vgo (hs : fobs -> bool) (d : data) (cur : N) (marked : bool) (s : fetcher) : res fetcher :=
  let! s := (if fo_inOrder o && (fs_nextOrd s =? cur) then fs_deliver hs (S (length (fs_buf s))) s else Ok s) in
  let s := (match fs_recv s with
            | [_] => let s := wVer (nm_getPrefix (-1) (d_name d)) s in
                     if cur =? 0 then wNext ((fs_next s + 1) mod two64) s else s
            | _ => s end) in
  let s := (if fs_highData s <? cur then wHighData cur s else s) in
  let! s := (if marked && negb (fo_ignoreCong o) then fs_winDec o s else fs_winInc o s) in
  fs_window conv o hs s.
Definition vfinal (hs : fobs -> bool) (d : data) (s : fetcher) : res (fetcher + fetcher) :=
  match mi_final (d_meta d) with
  | Some f =>
      if negb (isKind dconv KSegment f) then Ok (inl (fs_error hs 5 s))
      else
        let! last := toKind dconv KSegment f in
        let n := (last + 1) mod two64 in
        if n =? toU64 (fs_nseg s) then Ok (inr s)
        else let! s := fs_cancelExcess (wNseg (toI64 n) s) in Ok (inr s)
  | None => Ok (inr s)
  end.
Lemma validated_split : forall hs d uid m now s s', fs_this s = true -> fs_validated conv dconv o hs d uid m now s = Ok s' ->
  exists c cur k p rest v r, nm_last (d_name d) = Some c /\ toKind dconv KSegment c = Ok cur /\
    filter (fun kp => Nat.eqb (ps_uid (snd kp)) uid) (fs_pend s) = (k, p) :: rest /\ vbuf cur d s = Ok v /\
    vfinal hs d (fs_fire hs (OValidated d) (vstart cur now v k s)) = Ok r /\
    match r with inl s1 => s' = s1 | inr s1 => vgo hs d cur m s1 = Ok s' end.
Proof.
  intros hs d uid m now s s' T H. unfold fs_validated in H. rewrite T in H. cbn [negb] in H.
  destruct (nm_last (d_name d)) as [c|] eqn:L; cbn [bind] in H; [|discriminate].
  destruct (toKind dconv KSegment c) as [cur|] eqn:K; cbn [bind] in H; [|discriminate].
  cbn [fs_pend wNrecv wTlast] in H. destruct (filter _ (fs_pend s)) as [|[k p] rest] eqn:F; [discriminate|].
  destruct (_ && _); [discriminate|].
  fold (vbuf cur d s) in H. change (match mget cur (fs_buf (wPend (mremove k (fs_pend s)) (wNrecv (fs_nrecv (wTlast now s) + 1)%Z (sinsert cur (fs_recv (wTlast now s))) (wTlast now s)))) with
    | Some old => overlay (c_val (d_content d)) old | None => Ok (c_val (d_content d)) end) with (vbuf cur d s) in H.
  destruct (vbuf cur d s) as [v|] eqn:V; cbn [bind] in H; [|discriminate].
  match type of H with context [fs_fire hs (OValidated d) ?X] => change X with (vstart cur now v k s) in H end.
  set (s1 := fs_fire hs (OValidated d) (vstart cur now v k s)) in *.
  exists c, cur, k, p, rest, v. unfold vfinal. destruct (mi_final (d_meta d)) as [f|].
  - destruct (negb (isKind dconv KSegment f)).
    { injection H as <-. exists (inl (fs_error hs 5 s1)). splits; auto. }
    destruct (toKind dconv KSegment f) as [last|]; cbn [bind] in *; [|discriminate].
    destruct (_ =? _).
    + exists (inr s1). splits; auto.
    + destruct (fs_cancelExcess _) as [s2|]; cbn [bind] in *; [|discriminate]. exists (inr s2). splits; auto.
  - exists (inr s1). splits; auto.
Qed.
Lemma vgo_shape : forall hs d cur m s s', vgo hs d cur m s = Ok s' -> shape hs s s'.
Proof.
  intros hs d cur m s s' H. unfold vgo in H.
  destruct (if fo_inOrder o && _ then _ else _) as [s1|] eqn:E; cbn [bind] in H; [|discriminate].
  assert (C1 : calm hs s s1). { destruct (fo_inOrder o && _); [eapply deliver_calm; eauto|]. injection E as <-. apply calm_refl. }
  eapply shape_pre; [exact C1|]. clear E C1.
  match type of H with context [fs_highData ?X] => set (s2 := X) in * end.
  assert (C2 : calm hs s1 s2). { unfold s2. destruct (fs_recv s1) as [|x [|]]; try apply calm_refl. destruct (cur =? 0); apply calm_same; auto. }
  eapply shape_pre; [exact C2|]. match type of H with context [if _ then fs_winDec o ?X else _] => set (s3 := X) in * end.
  assert (C3 : calm hs s2 s3). { unfold s3. destruct (_ <? _); [apply calm_same; auto|apply calm_refl]. }
  eapply shape_pre; [exact C3|]. destruct (if m && _ then _ else _) as [s4|] eqn:E; cbn [bind] in H; [|discriminate].
  assert (C4 : calm hs s3 s4). { destruct (m && _); [apply quiet_winDec in E as (Q & _)|apply quiet_winInc in E as (Q & _)]; now apply calm_quiet. }
  eapply shape_pre; [exact C4|]. eapply window_shape; eauto.
Qed.
Lemma validated_shape : forall hs d uid m now s s', fs_validated conv dconv o hs d uid m now s = Ok s' -> shape hs s s'.
Proof.
  intros hs d uid m now s s' H. destruct (fs_this s) eqn:T.
  - apply validated_split in H as (c & cur & k & p & rest & v & r & _ & _ & _ & _ & F & R); auto.
    eapply shape_pre; [|]. { eapply calm_trans with (vstart cur now v k s); [apply calm_same; auto|apply (calm_fire hs (OValidated d)); [reflexivity|discriminate]]. }
    set (s1 := fs_fire hs (OValidated d) (vstart cur now v k s)) in *. unfold vfinal in F. destruct (mi_final (d_meta d)) as [f|].
    + destruct (negb _). { injection F as <-. subst s'. apply error_shape. }
      destruct (toKind dconv KSegment f) as [last|]; cbn [bind] in F; [|discriminate]. destruct (_ =? _).
      * injection F as <-. eapply vgo_shape; eauto.
      * destruct (fs_cancelExcess _) as [s2|] eqn:E; cbn [bind] in F; [|discriminate]. injection F as <-. apply quiet_excess in E as (Q & _).
        eapply shape_pre; [|eapply vgo_shape; eauto]. eapply calm_trans; [|apply calm_quiet; exact Q]. apply calm_same; auto.
    + injection F as <-. eapply vgo_shape; eauto.
  - unfold fs_validated in H. rewrite T in H. injection H as <-. left. apply calm_refl.
Qed.
Lemma step_shape : forall e s s', fs_step conv dconv o e s = Ok s' -> shape (snd e) s s'.
Proof.
  intros [e hs] s s' H. unfold fs_step in H. cbn [fst snd] in *. destruct e as [id d m|id r now|id now|v now|v|].
  - destruct (nth_error (fs_reqs s) id); [eapply data_shape; eauto|]. injection H as <-. left. apply calm_refl.
  - destruct (nth_error (fs_reqs s) id); [eapply nack_shape; eauto|]. injection H as <-. left. apply calm_refl.
  - destruct (has_timer id s); [|injection H as <-; left; apply calm_refl].
    destruct (nth_error (fs_reqs s) id); [|injection H as <-; left; apply calm_refl].
    eapply shape_pre; [|eapply timeout_shape; eauto]. apply calm_same; auto.
  - destruct (nth_error (fs_vals s) v) as [[[[d uid] m]|]|]; try (injection H as <-; left; apply calm_refl).
    eapply shape_pre; [|eapply validated_shape; eauto]. apply calm_same; auto.
  - destruct (nth_error (fs_vals s) v) as [[[[d uid] m]|]|]; try (injection H as <-; left; apply calm_refl).
    injection H as <-. unfold fs_invalid. destruct (negb _).
    + left. apply calm_same; auto.
    + eapply shape_pre; [|apply error_shape]. apply calm_same; auto.
  - injection H as <-. unfold fs_stop. destruct (fs_this s) eqn:E; [|left; apply calm_refl].
    right. right. exists s, []. split; [apply calm_refl|]. split; auto. right. splits; auto. cbn. now rewrite app_nil_r.
Qed.
(* after the fetcher has stopped, nothing happens *)
Lemma step_stopped : forall e s, fs_this s = false -> exists s', fs_step conv dconv o e s = Ok s' /\ fs_this s' = false /\ fs_log s' = fs_log s.
Proof.
  intros [e hs] s T. unfold fs_step. cbn [fst snd]. destruct e as [id d m|id r now|id now|v now|v|].
  - destruct (nth_error (fs_reqs s) id); [|eauto]. unfold fs_data. rewrite T. cbn. eauto.
  - destruct (nth_error (fs_reqs s) id); [|eauto]. unfold fs_nack. rewrite T. cbn. eauto.
  - destruct (has_timer id s); [|eauto]. destruct (nth_error (fs_reqs s) id); [|eauto]. unfold fs_timeout. cbn [fs_this wPend]. rewrite T. cbn [negb]. eexists. split; [reflexivity|]. auto.
  - destruct (nth_error (fs_vals s) v) as [[[[d uid] m]|]|]; eauto. unfold fs_validated. cbn [fs_this wVals]. rewrite T. cbn [negb]. eexists. split; [reflexivity|]. auto.
  - destruct (nth_error (fs_vals s) v) as [[[[d uid] m]|]|]; eauto. unfold fs_invalid. cbn [fs_this wVals]. rewrite T. cbn [negb]. eexists. split; [reflexivity|]. auto.
  - unfold fs_stop. rewrite T. eauto.
Qed.
Lemma run_stopped : forall l s, fs_this s = false -> exists s', fs_run conv dconv o l s = Ok s' /\ fs_this s' = false /\ fs_log s' = fs_log s.
Proof.
  induction l as [|e l IH]; intros s T; cbn [fs_run]; [eauto|]. destruct (step_stopped e s T) as (s1 & -> & T1 & L1). cbn [bind].
  destruct (IH s1 T1) as (s2 & E & T2 & L2). exists s2. splits; auto. congruence.
Qed.
Definition once (l : list fobs) : Prop := forall a t b, l = a ++ t :: b -> terminal t = true -> Forall (fun ob => terminal ob = false) a /\ (b = [] \/ b = [OStop]).
Definition start_inv (s : fetcher) : Prop := once (fs_log s) /\ (fs_this s = true -> Forall (fun ob => terminal ob = false) (fs_log s)).
Lemma fire_stop_log : forall hs t s, fs_log (fs_stop (fs_fire hs t s)) = fs_log s ++ t :: (if fs_this s then [OStop] else []).
Proof.
  intros hs t s. unfold fs_fire. destruct (hs t); unfold fs_stop; cbn; destruct (fs_this s) eqn:E; cbn; rewrite ?E; cbn; auto; now rewrite <- app_assoc.
Qed.
Lemma once_calm : forall l, Forall (fun ob => terminal ob = false) l -> once l.
Proof.
  intros l F a t b -> T. apply Forall_app in F as [_ F]. inversion F; subst. congruence.
Qed.
Lemma shape_log : forall hs s s', shape hs s s' -> exists l, fs_log s' = fs_log s ++ l.
Proof.
  intros hs s s' [(_ & (l & L & _) & _)|[(s1 & t & (_ & (l & L & _) & _) & _ & ->)|(s1 & x & (_ & (l & L & _) & _) & _ & [(_ & E)|(_ & _ & E)])]].
  - eauto.
  - rewrite fire_stop_log, L, <- app_assoc. eauto.
  - rewrite E, L, <- app_assoc. eauto.
  - rewrite E, L, <- !app_assoc. eauto.
Qed.
Lemma once_end : forall pre t st, Forall (fun ob => terminal ob = false) pre -> terminal t = true -> st = [] \/ st = [OStop] -> once (pre ++ t :: st).
Proof.
  intros pre t st X Tt St a u b E Tu.
  assert (Y : Forall (fun ob => terminal ob = false) a /\ exists x, pre = a ++ x /\ (x = [] \/ exists y x', x = y :: x' /\ y = u)).
  { revert pre X E. induction a as [|z a IH]; intros pre X E.
    - split; auto. exists pre. split; auto. destruct pre as [|y pre]; auto. right. exists y, pre. split; auto. cbn in E. now injection E.
    - destruct pre as [|y pre].
      + cbn in E. exfalso. injection E as -> E. destruct St as [-> | ->]; destruct a; try discriminate; cbn in E; injection E as <-; try discriminate; destruct a; discriminate.
      + cbn in E. injection E as -> E. inversion X; subst. destruct (IH pre) as (Fa & x & -> & D); auto. split; [constructor; auto|]. exists x. auto. }
  destruct Y as (Fa & x & -> & [->|(y & x' & -> & ->)]).
  - rewrite app_nil_r in E. apply app_inv_head in E. injection E as <- <-. split; auto.
  - apply Forall_app in X as [_ X]. inversion X; subst. congruence.
Qed.
Lemma step_once : forall e s s', start_inv s -> fs_step conv dconv o e s = Ok s' -> start_inv s'.
Proof.
  intros e s s' (I1 & I2) H. destruct (fs_this s) eqn:T.
  - specialize (I2 eq_refl).
    assert (K : forall l, Forall (fun ob => terminal ob = false) l -> fs_log s' = fs_log s ++ l -> start_inv s').
    { intros l F L. assert (X : Forall (fun ob => terminal ob = false) (fs_log s')) by (rewrite L; apply Forall_app; auto). split; auto. now apply once_calm. }
    apply step_shape in H as [(_ & (l & L & F) & _)|[(s1 & t & (_ & (l & L & F) & _) & Tt & ->)|(s1 & x & (_ & (l & L & F) & _) & Hx & [(_ & E)|(_ & _ & E)])]].
    + eapply K; eauto.
    + split; [|rewrite stop_this; discriminate]. rewrite fire_stop_log, L. apply once_end; auto; [apply Forall_app; auto|]. destruct (fs_this s1); auto.
    + apply (K (l ++ x)); [|now rewrite E, L, app_assoc]. apply Forall_app. split; auto. destruct Hx as [->|[d ->]]; auto.
    + apply (K ((l ++ x) ++ [OStop])); [|now rewrite E, L, !app_assoc]. apply Forall_app. split; [|constructor; auto]. apply Forall_app. split; auto. destruct Hx as [->|[d ->]]; auto.
  - destruct (step_stopped e s T) as (s1 & E & T1 & L1). rewrite E in H. injection H as ->. split; [rewrite L1; auto|congruence].
Qed.
(* when handlers call stop() only where that is allowed, nothing follows stop() *)
Definition last_inv (s : fetcher) : Prop := (fs_this s = true -> J s) /\ (fs_this s = false -> exists a, fs_log s = a ++ [OStop] /\ ~ In OStop a).
Lemma step_last : forall e s s', strict (snd e) -> last_inv s -> fs_step conv dconv o e s = Ok s' -> last_inv s'.
Proof.
  intros e s s' ST (I1 & I2) H. destruct (fs_this s) eqn:T.
  - specialize (I1 eq_refl).
    assert (NJ : forall x, J x -> fs_this x = true -> ~ In OStop (fs_log x)) by (intros x X Y Z; apply X in Z; congruence).
    apply step_shape in H as [(_ & _ & C3 & C4)|[(s1 & t & (_ & _ & C3 & C4) & Tt & ->)|(s1 & x & (_ & _ & C3 & C4) & Hx & [(E1 & E)|(E0 & E1 & E)])]].
    + split; [auto|]. rewrite (C4 ST), T. discriminate.
    + split; [rewrite stop_this; discriminate|]. intros _. rewrite fire_stop_log, (C4 ST), T. exists (fs_log s1 ++ [t]). rewrite <- app_assoc. split; auto.
      rewrite in_app_iff. cbn. intros [X|[->|[]]]; [|discriminate]. revert X. apply NJ; auto. now rewrite (C4 ST).
    + split; [|rewrite E1, (C4 ST), T; discriminate]. intros _. apply (J_app s1) with x; auto. destruct Hx as [->|[d ->]]; cbn; [tauto|]. intros [X|[]]. discriminate.
    + split; [congruence|]. intros _. exists (fs_log s1 ++ x). split; auto. rewrite in_app_iff. intros [X|X].
      * revert X. apply NJ; auto.
      * destruct Hx as [->|[d ->]]; cbn in X; [tauto|]. destruct X as [X|[]]. discriminate.
  - destruct (step_stopped e s T) as (s1 & E & T1 & L1). rewrite E in H. injection H as ->. split; [congruence|]. intros _. rewrite L1. auto.
Qed.
Lemma run_last : forall l s s', Forall (fun e => strict (snd e)) l -> last_inv s -> fs_run conv dconv o l s = Ok s' -> last_inv s'.
Proof.
  induction l as [|e l IH]; intros s s' F I H; cbn [fs_run] in H; [now injection H as <-|]. inversion F; subst.
  destruct (fs_step conv dconv o e s) as [s1|] eqn:E; cbn [bind] in H; [|discriminate]. eapply IH; [| |exact H]; auto. eapply step_last; eauto.
Qed.
Lemma run_once : forall l s s', start_inv s -> fs_run conv dconv o l s = Ok s' -> start_inv s'.
Proof.
  induction l as [|e l IH]; intros s s' I H; cbn [fs_run] in H; [now injection H as <-|].
  destruct (fs_step conv dconv o e s) as [s1|] eqn:E; cbn [bind] in H; [|discriminate]. eapply IH; [|exact H]. eapply step_once; eauto.
Qed.
Lemma start_inv_start : forall base now s, fs_start dconv o base now = Ok s -> start_inv s /\ fs_this s = true.
Proof.
  intros base now s H. unfold fs_start in H. destruct (fopts_ok o); [|discriminate]. unfold fs_first in H.
  apply quiet_send in H as (Q & _ & T). split; [|exact T]. apply (calm_quiet (fun _ => false)) in Q as (_ & (l & L & F) & _). cbn in L.
  unfold start_inv. rewrite L. split; auto. now apply once_calm.
Qed.
Lemma last_inv_start : forall base now s, fs_start dconv o base now = Ok s -> last_inv s.
Proof.
  intros base now s H. unfold fs_start in H. destruct (fopts_ok o); [|discriminate]. unfold fs_first in H.
  apply quiet_send in H as (Q & _ & T). apply (calm_quiet (fun _ => false)) in Q as (_ & _ & Q & _). split; [|cbn in T; congruence]. intros _. apply Q. unfold J. cbn. split; [tauto|discriminate].
Qed.
End F.
