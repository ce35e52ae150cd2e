From Coq Require Import ZArith Lia ZifyBool ZifyNat ZifyN.
From Verif Require Import Base BaseLemmas M_Tlv M_Name S_Name P_Block P_Name P_NameUri P_NameOrder M_NotifSub S_NotifSub P_NotifSub.

Section Steps.
Variable conv dconv : convention.
Variable prefix : name.
Notation step := (su_step conv dconv prefix).
Notation run := (su_run conv dconv prefix).

(* ---- the Interest that follows a notification ---- *)
Lemma acts_last : forall l s s' o, su_acts l s = (s', o) -> su_last s' = su_last s /\ su_lastNack s' = su_lastNack s /\ su_attempts s' = su_attempts s.
Proof.
  assert (ST : forall s, su_last (su_stop s) = su_last s /\ su_lastNack (su_stop s) = su_lastNack s /\ su_attempts (su_stop s) = su_attempts s).
  { intro s. unfold su_stop. destruct (su_running s); auto. }
  assert (SI : forall s s' o, sendInitial s = (s', o) -> su_last s' = su_last s /\ su_lastNack s' = su_lastNack s /\ su_attempts s' = su_attempts s).
  { intros s s' o H. unfold sendInitial in H. destruct (shouldStop s) as [s1 b] eqn:E. destruct (shouldStop_spec _ _ _ E) as [(-> & _ & [->| ->])|(-> & -> & _)]; injection H as <- <-; auto. }
  induction l as [|a l IH]; intros s s' o H; cbn in H; [injection H as <- <-; auto|].
  destruct (su_act a s) as [s1 o1] eqn:E1. destruct (su_acts l s1) as [s2 o2] eqn:E2. injection H as <- <-. destruct (IH _ _ _ E2) as (A & B & C). rewrite A, B, C.
  destruct a; cbn in E1.
  - unfold su_start in E1. destruct (su_running s); [injection E1 as <- <-; auto|]. destruct (SI _ _ _ E1) as (X & Y & Z). cbn in X, Y, Z. auto.
  - injection E1 as <- <-. auto.
  - injection E1 as <- <-. auto.
Qed.
Lemma next_after : forall i d ok acts s s' c n, step (EvData i d ok acts false) s = (s', c) -> In (ODeliver i n) c -> su_running s' = true ->
  exists c1 j, c = ODeliver i n :: c1 ++ [OSend j (SNext ((n + 1) mod 2 ^ 64))].
Proof.
  intros i d ok acts s s' c n H I R. cbn in H. unfold su_answer in H. destruct (lookup i (su_table s)) as [x|]; [|injection H as <- <-; destruct I].
  destruct (matches conv prefix (pe_kind x) d); [|injection H as <- <-; destruct I]. destruct (su_alive s); [|injection H as <- <-; destruct I as [I|[]]; discriminate].
  unfold afterReceiveData in H. destruct (shouldStop s) as [s1 b]. destruct b; [injection H as <- <-; destruct I|].
  assert (AI : forall l s s' o, su_acts l s = (s', o) -> forall i n, ~ In (ODeliver i n) o).
  { clear. assert (SI : forall s s' o, sendInitial s = (s', o) -> forall i n, ~ In (ODeliver i n) o).
    { intros s s' o. unfold sendInitial. destruct (shouldStop s) as [s1 b]. destruct b; intros [= <- <-] i n I; [exact I|]. destruct I as [I|[]]. discriminate. }
    induction l as [|a l IH]; intros s s' o H i n I; cbn in H; [injection H as <- <-; exact I|].
    destruct (su_act a s) as [s1 o1] eqn:E1. destruct (su_acts l s1) as [s2 o2] eqn:E2. injection H as <- <-. apply in_app_iff in I as [I|I]; [|eapply IH; eauto].
    destruct a; cbn in E1; [|injection E1 as <- <-; exact I|injection E1 as <- <-; exact I]. unfold su_start in E1. destruct (su_running s); [injection E1 as <- <-; exact I|]. eapply SI; eauto. }
  assert (BAD : forall s1 s2 o2, su_emit (OBad i) acts false sendInitial s1 = (s2, o2, false) -> ~ In (ODeliver i n) o2).
  { clear - AI. intros s1 s2 o2 H I. unfold su_emit in H. destruct (su_acts acts s1) as [s3 o3] eqn:E3. destruct (sendInitial s3) as [s4 o4] eqn:E4. injection H as <- <-.
    destruct I as [I|I]; [discriminate|]. apply in_app_iff in I as [I|I]; [destruct (AI _ _ _ _ E3 _ _ I)|]. unfold sendInitial in E4. destruct (shouldStop s3) as [s5 b]. destruct b; injection E4 as <- <-; [destruct I|]. destruct I as [I|[]]. discriminate. }
  assert (FL : forall x k s1 s2 o2 th, su_emit x acts false k s1 = (s2, o2, th) -> th = false).
  { clear. intros x k s1 s2 o2 th H. unfold su_emit in H. destruct (su_acts acts s1). destruct (k s). congruence. }
  destruct (seq_of dconv d) as [m|er].
  - destruct ok.
    + unfold su_emit in H. destruct (su_acts acts (setLast m s1)) as [s2 o2] eqn:E2. destruct (sendNext s2) as [s3 o3] eqn:E3. injection H as <- <-.
      destruct (acts_last _ _ _ _ E2) as (LA & _). cbn in LA.
      assert (M : m = n). { destruct I as [I|I]; [congruence|]. exfalso. apply in_app_iff in I as [I|I]; [destruct (AI _ _ _ _ E2 _ _ I)|].
        unfold sendNext in E3. destruct (shouldStop s2) as [s5 b]. destruct b; injection E3 as <- <-; [destruct I|]. destruct I as [I|[]]. discriminate. }
      subst n. unfold sendNext in E3. destruct (shouldStop s2) as [s5 b] eqn:SS. destruct (shouldStop_spec _ _ _ SS) as [(-> & NR & _)|(-> & -> & _)].
      * injection E3 as <- <-. cbn in R. congruence.
      * injection E3 as <- <-. exists o2, (su_next s2). rewrite LA. reflexivity.
    + destruct (su_emit (OBad i) acts false sendInitial (setLast m s1)) as [[s2 o2] th] eqn:E. injection H as <- <-. pose proof (FL _ _ _ _ _ _ E). subst th. destruct (BAD _ _ _ E I).
  - destruct er; try (injection H as <- <-; destruct I as [I|[]]; discriminate).
    destruct (su_emit (OBad i) acts false sendInitial s1) as [[s2 o2] th] eqn:E. injection H as <- <-. pose proof (FL _ _ _ _ _ _ E). subst th. destruct (BAD _ _ _ E I).
Qed.

(* ---- the delay ---- *)
Lemma nacked_app : forall a b acc, nacked (a ++ b) acc = nacked b (nacked a acc).
Proof. induction a as [|x a IH]; intros b acc; cbn; auto. destruct x; apply IH. Qed.
Lemma nacked_none : forall o acc, (forall n d, ~ In (OWait n d) o) -> nacked o acc = acc.
Proof. induction o as [|x o IH]; intros acc N; cbn; auto. destruct x; try (apply IH; intros n' d' I; apply (N n' d'); right; exact I). destruct (N n delay). left. reflexivity. Qed.

Definition top : N := two64 - 1.
Definition counted (s : sub) (l : list N) : Prop :=
  match l with
  | [] => su_lastNack s = top /\ su_attempts s = 1
  | n :: _ => su_lastNack s = n /\ (n <> top -> su_attempts s = streak n l)
  end.
Lemma counted_next : forall s l n, counted s l -> n <> top -> (if su_lastNack s =? n then su_attempts s + 1 else 1) = 1 + streak n l.
Proof.
  intros s l n C N. destruct l as [|x l]; cbn in C.
  - destruct C as [A B]. rewrite A, B. replace (top =? n) with false by (symmetry; apply N.eqb_neq; auto). reflexivity.
  - destruct C as [A B]. rewrite A. cbn [streak]. destruct (N.eqb_spec x n) as [->|D]; [|lia]. rewrite B by auto. cbn [streak]. rewrite N.eqb_refl. lia.
Qed.
Lemma inits_no_wait : forall o n d, inits o -> ~ In (OWait n d) o.
Proof. intros o n d I H. apply I in H as (j & H). discriminate. Qed.

Lemma chunk_wait : forall s s' c, chunk conv dconv prefix s s' c -> ~ In OUb c ->
  (same s s' /\ forall n d, ~ In (OWait n d) c) \/
  exists c1 n d r, c = c1 ++ [OWait n d] /\ (forall n d, ~ In (OWait n d) c1) /\ su_lastNack s' = n /\ su_attempts s' = (if su_lastNack s =? n then su_attempts s + 1 else 1) /\ backoff (su_attempts s') r = Ok d.
Proof.
  intros s s' c H U. destruct H as [o IO SA|x o N1 N2 N3 N4 IO SA|x d n0 o o2 Ix M SQ IO O2 SA|i n0 o d r0 IO LN AT BK| |i n0 o IO].
  - left. split; auto. intros n d. apply inits_no_wait. exact IO.
  - left. split; auto. intros n d [I|I]; [exact (N3 _ _ I)|exact (inits_no_wait _ _ _ IO I)].
  - left. split; auto. intros n dd [I|I]; [discriminate|]. apply in_app_iff in I as [I|I]; [exact (inits_no_wait _ _ _ IO I)|]. destruct O2 as [->|(h & ->)]; [destruct I|]. destruct I as [I|[]]. discriminate.
  - right. exists (ONack i n0 :: o), n0, d, r0. splits; auto. intros n dd [I|I]; [discriminate|exact (inits_no_wait _ _ _ IO I)].
  - destruct U. left. reflexivity.
  - destruct U. right. apply in_app_iff. right. left. reflexivity.
Qed.

Lemma run_counted : forall l s o, run l su_new = (s, o) -> ~ In OUb o -> counted s (nacked o []).
Proof.
  induction l as [|e l IH] using rev_ind; intros s o H U.
  - injection H as <- <-. cbn. auto.
  - rewrite run_snoc in H. destruct (run l su_new) as [s1 o1] eqn:E1. destruct (step e s1) as [s2 o2] eqn:E2. injection H as <- <-.
    pose proof (hist_run _ _ _ _ _ _ E1) as HR. destruct (step_spec _ _ _ _ _ _ _ (h_inv _ _ HR) E2) as ((_ & CH & _) & _).
    assert (U1 : ~ In OUb o1) by (intro; apply U; apply in_app_iff; auto). assert (U2 : ~ In OUb o2) by (intro; apply U; apply in_app_iff; auto).
    specialize (IH _ _ eq_refl U1). rewrite nacked_app. destruct (chunk_wait _ _ _ CH U2) as [[[A B] N]|(c1 & n & d & r & -> & N & A & B & BK)].
    + rewrite nacked_none by exact N. unfold counted in *. rewrite A, B. exact IH.
    + rewrite nacked_app, (nacked_none c1) by exact N. cbn. split; auto. intro NT. rewrite B, N.eqb_refl. apply counted_next; auto.
Qed.

Lemma backoff_inv : forall a r d, backoff a r = Ok d -> d = 100 * 2 ^ a + r mod 100.
Proof. intros a r d H. unfold backoff in H. destruct (2 ^ a * 100 + r mod 100 <? 2 ^ 63); [|discriminate]. injection H as <-. lia. Qed.
Lemma run_backoff : forall l s o, run l su_new = (s, o) -> forall a n d b, o = a ++ OWait n d :: b -> ~ In OUb a -> n <> top ->
  exists r, r < 100 /\ d = 100 * 2 ^ (1 + streak n (nacked a [])) + r.
Proof.
  induction l as [|e l IH] using rev_ind; intros s o H a n d b E U NT.
  - injection H as <- <-. destruct a; discriminate.
  - rewrite run_snoc in H. destruct (run l su_new) as [s1 o1] eqn:E1. destruct (step e s1) as [s2 o2] eqn:E2. injection H as <- <-.
    destruct (split_app _ _ _ _ _ _ E) as [(b' & E')|(a' & -> & E')]; [eapply IH; eauto|].
    pose proof (hist_run _ _ _ _ _ _ E1) as HR. destruct (step_spec _ _ _ _ _ _ _ (h_inv _ _ HR) E2) as ((_ & CH & _) & _).
    assert (U1 : ~ In OUb o1) by (intro; apply U; apply in_app_iff; auto).
    assert (K : forall c1 n' d', o2 = c1 ++ [OWait n' d'] -> (forall n d, ~ In (OWait n d) c1) -> a' = c1 /\ n = n' /\ d = d').
    { intros c1 n' d' X N. rewrite X in E'. symmetry in E'. destruct (split_app _ _ _ _ _ _ (eq_sym E')) as [(b' & ->)|(a'' & -> & Y)]; [destruct (N n d); apply in_mid|].
      destruct a'' as [|z a'']; cbn in Y; [|injection Y as _ Y; destruct a''; discriminate]. injection Y as -> -> _. rewrite app_nil_r. auto. }
    destruct CH as [o IO SA|x o N1 N2 N3 N4 IO SA|x dd n0 o o2 Ix M SQ IO O2 SA|i n0 o dd r0 IO LN AT BK| |i n0 o IO].
    + exfalso. apply (inits_no_wait _ n d IO). rewrite E'. apply in_mid.
    + exfalso. assert (I : In (OWait n d) (x :: o)) by (rewrite E'; apply in_mid). destruct I as [I|I]; [exact (N3 _ _ I)|exact (inits_no_wait _ _ _ IO I)].
    + exfalso. assert (I : In (OWait n d) (ODeliver (pe_id x) n0 :: o ++ o2)) by (rewrite E'; apply in_mid). destruct I as [I|I]; [discriminate|]. apply in_app_iff in I as [I|I]; [exact (inits_no_wait _ _ _ IO I)|]. destruct O2 as [->|(h & ->)]; [destruct I|]. destruct I as [I|[]]. discriminate.
    + destruct (K (ONack i n0 :: o) n0 dd eq_refl) as (-> & -> & ->). { intros n1 d1 [I|I]; [discriminate|exact (inits_no_wait _ _ _ IO I)]. }
      apply backoff_inv in BK. exists (r0 mod 100). split; [apply N.mod_upper_bound; lia|]. rewrite BK, AT. f_equal. f_equal. f_equal.
      rewrite nacked_app. cbn [nacked]. rewrite (nacked_none o) by (intros; apply inits_no_wait; exact IO). apply counted_next; auto. eapply run_counted; eauto.
    + exfalso. assert (I : In (OWait n d) [OUb]) by (rewrite E'; apply in_mid). destruct I as [I|[]]. discriminate.
    + exfalso. assert (I : In (OWait n d) (ONack i n0 :: o ++ [OUb])) by (rewrite E'; apply in_mid). destruct I as [I|I]; [discriminate|]. apply in_app_iff in I as [I|[I|[]]]; [exact (inits_no_wait _ _ _ IO I)|discriminate].
Qed.

(* ---- no undefined behaviour ---- *)
Lemma toKind_err : forall k c e, toKind dconv k c = Err e -> e = ETlv.
Proof.
  intros k c e H. unfold toKind in H. destruct (canDecodeMarker dconv && (c_type c =? tGenericNameComponent)).
  - unfold toNumberWithMarker in H. destruct (isNumberWithMarker _ c); [|congruence]. destruct (readNonNegativeInteger _ _) eqn:E; cbn in H; [discriminate|]. apply readNNI_err in E. congruence.
  - destruct (canDecodeTyped dconv && (c_type c =? kind_type k)); [|congruence]. unfold toNumber in H. destruct (isNumber c); [|congruence].
    destruct (readNonNegativeInteger _ _) eqn:E; cbn in H; [discriminate|]. apply readNNI_err in E. congruence.
Qed.
Lemma get_last : forall n, n_comps n <> [] -> exists c, nm_get (-1) n = Ok c.
Proof.
  intros n NE. unfold nm_get, nm_index, nm_size, nlen. change (-1 <? 0)%Z with true. cbv iota zeta.
  assert (L : (List.length (n_comps n) > 0)%nat). { destruct (n_comps n); [congruence|cbn; lia]. }
  destruct ((-1 + Z.of_N (N.of_nat (List.length (n_comps n))) <? 0)%Z) eqn:Z1; [lia|].
  destruct (Z.of_N (N.of_nat (List.length (n_comps n))) <=? -1 + Z.of_N (N.of_nat (List.length (n_comps n))))%Z eqn:Z2; [lia|]. cbn [orb].
  remember (Z.to_nat (-1 + Z.of_N (N.of_nat (List.length (n_comps n))))) as j eqn:J.
  destruct (nth_error (n_comps n) j) as [c|] eqn:E; [eexists; reflexivity|]. apply nth_error_None in E. lia.
Qed.
Lemma seq_of_err : forall n e, n_comps n <> [] -> seq_of dconv n = Err e -> e = ETlv.
Proof. intros n e NE H. unfold seq_of in H. destruct (get_last n NE) as (c & G). rewrite G in H. cbn in H. eapply toKind_err; eauto. Qed.
Lemma matches_nonempty : forall k d, n_comps prefix <> [] -> matches conv prefix k d = true -> n_comps d <> [].
Proof.
  intros k d NE M. unfold matches in M. destruct (int_name conv prefix k) as [n|] eqn:I; [|discriminate].
  assert (NN : nkey n <> []). { unfold int_name in I. destruct k; [injection I as <-; unfold nkey; destruct (n_comps prefix); [congruence|discriminate]|].
    destruct (fromKind conv KSequenceNumber n0); [|discriminate]. injection I as <-. unfold nkey, nm_append. cbn. rewrite map_app. destruct (map ckey (n_comps prefix)); discriminate. }
  intro X. assert (K : nkey d = []) by (unfold nkey; rewrite X; reflexivity). destruct k.
  - apply nm_isPrefixOf_iff in M as (s & M). rewrite K in M. destruct (nkey n); [congruence|discriminate].
  - apply nm_equals_iff in M. congruence.
Qed.

Lemma acts_no_ub : forall l s s' o, su_acts l s = (s', o) -> ~ In OUb o.
Proof.
  induction l as [|a l IH]; intros s s' o H I; cbn in H; [injection H as <- <-; exact I|].
  destruct (su_act a s) as [s1 o1] eqn:E1. destruct (su_acts l s1) as [s2 o2] eqn:E2. injection H as <- <-. apply in_app_iff in I as [I|I]; [|eapply IH; eauto].
  destruct a; cbn in E1; [|injection E1 as <- <-; exact I|injection E1 as <- <-; exact I]. unfold su_start in E1. destruct (su_running s); [injection E1 as <- <-; exact I|].
  unfold sendInitial in E1. destruct (shouldStop (setRunning true s)) as [s3 b]. destruct b; injection E1 as <- <-; [exact I|]. destruct I as [I|[]]. discriminate.
Qed.
Lemma sending_no_ub : forall (k : sub -> skind) s s' o, (let (s1, b) := shouldStop s in if b then (s1, []) else su_send (k s1) s1) = (s', o) -> ~ In OUb o.
Proof. intros k s s' o H I. destruct (shouldStop s) as [s1 b]. destruct b; injection H as <- <-; [exact I|]. destruct I as [I|[]]. discriminate. Qed.
Lemma emit_no_ub : forall x acts t k s s' c th, x <> OUb -> (forall s0 s1 o1 s2 o2, su_acts acts s0 = (s1, o1) -> s0 = s -> k s1 = (s2, o2) -> ~ In OUb o2) -> su_emit x acts t k s = (s', c, th) -> ~ In OUb c.
Proof.
  intros x acts t k s s' c th N K H I. unfold su_emit in H. destruct (su_acts acts s) as [s1 o1] eqn:E1. pose proof (acts_no_ub _ _ _ _ E1) as A. destruct t.
  - injection H as <- <- <-. destruct I as [I|I]; [congruence|auto].
  - destruct (k s1) as [s2 o2] eqn:E2. injection H as <- <- <-. destruct I as [I|I]; [congruence|]. apply in_app_iff in I as [I|I]; [auto|]. eapply K; eauto.
Qed.
Lemma emit_attempts : forall x acts t k s s' c th, (forall s1 s2 o2, k s1 = (s2, o2) -> su_attempts s2 = su_attempts s1) -> su_emit x acts t k s = (s', c, th) -> su_attempts s' = su_attempts s.
Proof.
  intros x acts t k s s' c th K H. unfold su_emit in H. destruct (su_acts acts s) as [s1 o1] eqn:E1. destruct (acts_last _ _ _ _ E1) as (_ & _ & A). destruct t.
  - injection H as <- <- <-. exact A.
  - destruct (k s1) as [s2 o2] eqn:E2. injection H as <- <- <-. rewrite <- A. eapply K; eauto.
Qed.
Lemma sending_attempts : forall (k : sub -> skind) s s' o, (let (s1, b) := shouldStop s in if b then (s1, []) else su_send (k s1) s1) = (s', o) -> su_attempts s' = su_attempts s.
Proof.
  intros k s s' o H. destruct (shouldStop s) as [s1 b] eqn:E. destruct (shouldStop_spec _ _ _ E) as [(-> & _ & [->| ->])|(-> & -> & _)]; injection H as <- <-; auto.
  unfold su_stop. destruct (su_running s); reflexivity.
Qed.
Lemma stop_attempts : forall s s' b, shouldStop s = (s', b) -> su_attempts s' = su_attempts s /\ su_lastNack s' = su_lastNack s.
Proof. intros s s' b E. destruct (shouldStop_spec _ _ _ E) as [(-> & _ & [->| ->])|(-> & -> & _)]; auto. unfold su_stop. destruct (su_running s); auto. Qed.

Definition is_nack (e : sev) : bool := match e with EvNack _ _ _ _ => true | _ => false end.
Lemma step_defined : forall e s s' c, su_alive s = true -> e <> EvDestroy -> n_comps prefix <> [] ->
  (forall x m, In x (su_table s) -> pe_kind x = SNext m -> m < two64) ->
  su_attempts s + 1 <= 56 \/ is_nack e = false -> su_attempts s >= 1 -> step e s = (s', c) ->
  ~ In OUb c /\ su_attempts s' <= su_attempts s + (if is_nack e then 1 else 0) /\ su_attempts s' >= 1.
Proof.
  intros e s s' c L ND NE TB AT A1 H.
  assert (AN : forall id fits kept f, su_answer id s fits kept f = (s', c) ->
    (forall x s1 c1 th, In x (su_table s) -> fits x = true -> f (pe_kind x) s = (s1, c1, th) -> ~ In OUb c1 /\ su_attempts s1 <= su_attempts s + (if is_nack e then 1 else 0) /\ su_attempts s1 >= 1) ->
    ~ In OUb c /\ su_attempts s' <= su_attempts s + (if is_nack e then 1 else 0) /\ su_attempts s' >= 1).
  { intros id fits kept f X F. assert (Z : ~ In OUb (@nil sout) /\ su_attempts s <= su_attempts s + (if is_nack e then 1 else 0) /\ su_attempts s >= 1) by (splits; auto; lia).
    unfold su_answer in X. destruct (lookup id (su_table s)) as [x|] eqn:LK; [|injection X as <- <-; exact Z]. apply lookup_in in LK as [I _].
    destruct (fits x) eqn:FT; [|injection X as <- <-; exact Z]. rewrite L in X. destruct (f (pe_kind x) s) as [[s1 c1] th] eqn:E. injection X as <- <-. cbn. eapply F; eauto. }
  destruct e as [a| | |id d ok acts t|id r acts t|id acts t|]; cbn [su_step is_nack] in *.
  - rewrite L in H. assert (AA : su_acts [a] s = (s', c)) by (cbn; rewrite H, app_nil_r; reflexivity).
    destruct (acts_last _ _ _ _ AA) as (_ & _ & B). pose proof (acts_no_ub _ _ _ _ AA). splits; auto; lia.
  - congruence.
  - destruct (su_queue s) as [|[i k|i] q]; injection H as <- <-; cbn; splits; auto; lia.
  - apply (AN _ _ _ _ H). intros x s1 c1 th I M E. unfold afterReceiveData in E. destruct (shouldStop s) as [s2 b] eqn:SS. destruct (stop_attempts _ _ _ SS) as [B _].
    destruct b; [injection E as <- <- <-; splits; auto; lia|].
    assert (BAD : forall s3, su_attempts s3 = su_attempts s2 -> su_emit (OBad id) acts t sendInitial s3 = (s1, c1, th) -> ~ In OUb c1 /\ su_attempts s1 <= su_attempts s + 0 /\ su_attempts s1 >= 1).
    { intros s3 E3 X. split.
      - eapply emit_no_ub; [| |exact X]; [discriminate|]. intros s0 s4 o4 s5 o5 _ _ Y. exact (sending_no_ub (fun _ => SInitial) _ _ _ Y).
      - assert (Y : su_attempts s1 = su_attempts s3). { eapply emit_attempts; [|exact X]. intros s4 s5 o5 Y. exact (sending_attempts (fun _ => SInitial) _ _ _ Y). } rewrite Y, E3, B. lia. }
    destruct (seq_of dconv d) as [n|er] eqn:SQ.
    + destruct ok; [|apply (BAD (setLast n s2)); auto]. split.
      * eapply emit_no_ub; [| |exact E]; [discriminate|]. intros s0 s4 o4 s5 o5 _ _ Y. exact (sending_no_ub (fun z => SNext ((su_last z + 1) mod two64)) _ _ _ Y).
      * assert (Y : su_attempts s1 = su_attempts (setLast n s2)). { eapply emit_attempts; [|exact E]. intros s4 s5 o5 Y. exact (sending_attempts (fun z => SNext ((su_last z + 1) mod two64)) _ _ _ Y). } rewrite Y. cbn. rewrite B. lia.
    + apply seq_of_err in SQ; [|eapply matches_nonempty; eauto]. subst er. apply (BAD s2); auto.
  - apply (AN _ _ _ _ H). intros x s1 c1 th I _ E. unfold afterReceiveNack in E. destruct (shouldStop s) as [s2 b] eqn:SS. destruct (stop_attempts _ _ _ SS) as [B B'].
    destruct b; [injection E as <- <- <-; splits; auto; lia|].
    assert (NM : exists nn, int_name conv prefix (pe_kind x) = Ok nn /\ n_comps nn <> []).
    { unfold int_name. destruct (pe_kind x) as [|m] eqn:K; [eauto|]. destruct (fromKind_ok conv KSequenceNumber m (TB _ _ I K)) as (cc & ->). cbn. eexists. split; [reflexivity|]. cbn. destruct (n_comps prefix); discriminate. }
    destruct NM as (nn & NM & NN). rewrite NM in E. cbn [bind] in E.
    assert (SO : exists n, match seq_of dconv nn with Err ETlv => Ok 0 | r => r end = Ok n).
    { destruct (seq_of dconv nn) as [n|er] eqn:SQ; eauto. apply seq_of_err in SQ; auto. subst er. eauto. }
    destruct SO as (n & SO). rewrite SO in E.
    assert (BK : forall s3 o3, su_acts acts s2 = (s3, o3) -> (if su_lastNack s3 =? n then su_attempts s3 + 1 else 1) <= 56).
    { intros s3 o3 E3. destruct (acts_last _ _ _ _ E3) as (_ & X & Y). rewrite X, Y, B. destruct (su_lastNack s2 =? n); lia. }
    assert (OKB : forall a, a <= 56 -> exists d, backoff a r = Ok d).
    { intros a La. unfold backoff. pose proof (N.mod_upper_bound r 100). assert (2 ^ a <= 2 ^ 56) by (apply N.pow_le_mono_r; lia).
      destruct (2 ^ a * 100 + r mod 100 <? 2 ^ 63) eqn:Z; [eauto|]. exfalso. apply N.ltb_ge in Z. change (2 ^ 56) with 72057594037927936 in *. change (2 ^ 63) with 9223372036854775808 in Z. lia. }
    split.
    + eapply emit_no_ub; [| |exact E]; [discriminate|]. intros s0 s4 o4 s5 o5 E4 -> Y. cbv zeta in Y. destruct (OKB _ (BK _ _ E4)) as (dd & Q). rewrite Q in Y. injection Y as <- <-. intros [Z|[]]. discriminate.
    + unfold su_emit in E. destruct (su_acts acts s2) as [s3 o3] eqn:E3. destruct (acts_last _ _ _ _ E3) as (_ & X & Y). destruct t; [injection E as <- <- <-; lia|]. cbv zeta in E.
      destruct (OKB _ (BK _ _ eq_refl)) as (dd & Q). rewrite Q in E. injection E as <- <- <-. cbn. destruct (su_lastNack s3 =? n); lia.
  - apply (AN _ _ _ _ H). intros x s1 c1 th I M E. unfold afterTimeout in E. destruct (shouldStop s) as [s2 b] eqn:SS. destruct (stop_attempts _ _ _ SS) as [B _].
    destruct b; [injection E as <- <- <-; splits; auto; lia|]. split.
    + eapply emit_no_ub; [| |exact E]; [discriminate|]. intros s0 s4 o4 s5 o5 _ _ Y. exact (sending_no_ub (fun _ => SInitial) _ _ _ Y).
    + assert (Y : su_attempts s1 = su_attempts s2). { eapply emit_attempts; [|exact E]. intros s4 s5 o5 Y. exact (sending_attempts (fun _ => SInitial) _ _ _ Y). } rewrite Y, B. lia.
  - destruct (su_timer s); [|injection H as <- <-; splits; auto; lia]. split; [exact (sending_no_ub (fun _ => SInitial) _ _ _ H)|]. rewrite (sending_attempts (fun _ => SInitial) _ _ _ H). cbn. lia.
Qed.

Lemma nacks_snoc : forall l e, nacks (l ++ [e]) = (nacks l + (if is_nack e then 1 else 0))%nat.
Proof. intros. unfold nacks. rewrite filter_app, app_length. cbn. destruct e; reflexivity. Qed.
Lemma alive_step : forall e s s' c, inv s -> su_alive s = true -> e <> EvDestroy -> step e s = (s', c) -> su_alive s' = true.
Proof.
  intros e s s' c V L ND H.
  assert (AN : forall id fits kept f, su_answer id s fits kept f = (s', c) ->
    (forall x s1 c1 th, In x (su_table s) -> pe_id x = id -> fits x = true -> f (pe_kind x) s = (s1, c1, th) -> su_alive s1 = true) -> su_alive s' = true).
  { intros id fits kept f X F. unfold su_answer in X. destruct (lookup id (su_table s)) as [x|] eqn:LK; [|injection X as <- <-; exact L]. apply lookup_in in LK as [I ID].
    destruct (fits x) eqn:FT; [|injection X as <- <-; exact L]. rewrite L in X. destruct (f (pe_kind x) s) as [[s1 c1] th] eqn:E. injection X as <- <-. cbn. eapply F; eauto. }
  destruct e as [a| | |id d ok acts t|id r acts t|id acts t|]; cbn [su_step] in *.
  - rewrite L in H. destruct (act_ext _ _ _ _ V L H) as ((_ & X & _) & _). congruence.
  - congruence.
  - destruct (su_queue s) as [|[i k|i] q]; injection H as <- <-; auto.
  - apply (AN _ _ _ _ H). intros x s1 c1 th I ID M E. rewrite <- ID in E. destruct (data_called conv dconv prefix _ _ _ _ _ _ _ _ _ V L I M E) as [((_ & X & _) & _) _]. congruence.
  - apply (AN _ _ _ _ H). intros x s1 c1 th I ID M E. destruct (nack_called conv dconv prefix _ _ _ _ _ _ _ _ _ V L E) as [((_ & X & _) & _) _]. congruence.
  - apply (AN _ _ _ _ H). intros x s1 c1 th I ID M E. destruct (timeout_called conv dconv prefix _ _ _ _ _ _ _ V L E) as [((_ & X & _) & _) _]. congruence.
  - destruct (su_timer s); [|injection H as <- <-; auto]. destruct (send_ext (fun _ => SInitial) _ _ _ (inv_timer false s L V) L H) as ((_ & X & _) & _). rewrite X. exact L.
Qed.
Lemma run_defined : forall l s o, n_comps prefix <> [] -> ~ In EvDestroy l -> (nacks l <= 55)%nat -> run l su_new = (s, o) ->
  ~ In OUb o /\ su_alive s = true /\ su_attempts s <= 1 + N.of_nat (nacks l) /\ su_attempts s >= 1.
Proof.
  induction l as [|e l IH] using rev_ind; intros s o NE ND NK H.
  - injection H as <- <-. cbn. splits; auto; lia.
  - rewrite run_snoc in H. destruct (run l su_new) as [s1 o1] eqn:E1. destruct (step e s1) as [s2 o2] eqn:E2. injection H as <- <-.
    rewrite nacks_snoc in NK. rewrite in_app_iff in ND.
    destruct (IH _ _ NE (fun X => ND (or_introl X)) ltac:(lia) eq_refl) as (U & L & A & A1).
    pose proof (hist_run _ _ _ _ _ _ E1) as HR. assert (EN : e <> EvDestroy). { intros ->. apply ND. right. left. reflexivity. }
    assert (TB : forall x m, In x (su_table s1) -> pe_kind x = SNext m -> m < two64).
    { intros x m I K. apply (h_table _ _ HR) in I. rewrite K in I. apply in_split in I as (a & b & E). destruct (h_next _ _ HR _ _ _ _ E) as (i & n & c1 & c2 & _ & -> & _). apply N.mod_upper_bound. discriminate. }
    assert (AT : su_attempts s1 + 1 <= 56 \/ is_nack e = false). { destruct (is_nack e); [left|right; auto]. lia. }
    destruct (step_defined _ _ _ _ L EN NE TB AT A1 E2) as (U2 & B & B1). rewrite nacks_snoc. splits; auto.
    + intro I. apply in_app_iff in I as [I|I]; auto.
    + eapply alive_step; eauto. apply (h_inv _ _ HR).
    + destruct (is_nack e); lia.
Qed.
End Steps.
