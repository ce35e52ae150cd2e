From Coq Require Import ZArith SpecFloat Lia ZifyBool ZifyNat ZifyN.
From Verif Require Import Base BaseLemmas M_Tlv M_Name M_Packet M_Rtt M_Fetcher S_Fetcher P_Fetcher.
Open Scope N_scope.

(* ---- the observations ---- *)
Lemma validated_app : forall a b, validated (a ++ b) = validated a ++ validated b.
Proof. induction a as [|x a IH]; intro c; [auto|]. destruct x; cbn; rewrite ?IH; auto. Qed.
Lemma delivered_app : forall a b, delivered (a ++ b) = delivered a ++ delivered b.
Proof. induction a as [|x a IH]; intro c; [auto|]. destruct x; cbn; rewrite ?IH; auto. Qed.
Lemma noise_none : forall l, Forall noise l -> validated l = [] /\ delivered l = [].
Proof. induction l as [|x l IH]; intro F; [auto|]. inversion F; subst. destruct x; cbn in *; try tauto. Qed.
Lemma last_final_snoc : forall dconv l d, last_final dconv (l ++ [d]) = match finalno dconv d with Some n => Some n | None => last_final dconv l end.
Proof.
  intros dconv l d. induction l as [|x l IH]; cbn; [destruct (finalno dconv d); auto|]. rewrite IH.
  destruct (finalno dconv d); auto.
Qed.
Lemma nlen_delivered : forall l, nlen (delivered l) <= nlen l.
Proof. induction l as [|x l IH]; [cbn; lia|]. destruct x; cbn [delivered]; rewrite ?nlen_cons; lia. Qed.
Definition good dconv (l : list fobs) : Prop := forall a t c, l = a ++ t :: c -> signal_ok dconv a t.
Lemma good_nil : forall dconv, good dconv [].
Proof. intros dconv [|] t c E; discriminate. Qed.
Lemma good_snoc : forall dconv l t, good dconv l -> signal_ok dconv l t -> good dconv (l ++ [t]).
Proof.
  intros dconv l t G S a u c E. destruct c as [|x c] using rev_ind.
  - apply app_inj_tail in E as [-> ->]. auto.
  - clear IHc. replace (a ++ u :: c ++ [x]) with ((a ++ u :: c) ++ [x]) in E by now rewrite <- app_assoc. apply app_inj_tail in E as [-> _]. eapply G; eauto.
Qed.
Lemma good_noise : forall dconv m l, good dconv l -> Forall noise m -> good dconv (l ++ m).
Proof.
  intros dconv m. induction m as [|x m IH] using rev_ind; intros l G F; [now rewrite app_nil_r|].
  apply Forall_app in F as [F1 F2]. rewrite app_assoc. apply good_snoc; auto. inversion F2; subst. destruct x; cbn in *; tauto.
Qed.
Lemma toI64_U64 : forall z, (- 2 ^ 63 <= z < 2 ^ 63)%Z -> toI64 (toU64 z) = z.
Proof.
  intros z H. unfold toI64, toU64. destruct (Z_le_gt_dec 0 z) as [L|L].
  - rewrite Z.mod_small by lia. destruct (_ <? _) eqn:E; lia.
  - assert (X : (z mod 2 ^ 64 = z + 2 ^ 64)%Z). { symmetry. apply Z.mod_unique with (-1)%Z; lia. } rewrite X. destruct (_ <? _) eqn:E; lia.
Qed.
Lemma toI64_range : forall n, n < two64 -> (- 2 ^ 63 <= toI64 n < 2 ^ 63)%Z.
Proof. intros n H. unfold toI64, two64 in *. destruct (_ <? _) eqn:E; lia. Qed.

Section F.
Variable conv dconv : convention.
Variable o : fopts.
Notation V s := (validated (fs_log s)).

Record inv0 (s : fetcher) : Prop := mkInv0 {
  i_recv : forall i, In i (fs_recv s) -> i < fs_nextOrd s \/ mget i (fs_buf s) <> None;
  i_buf : forall i v, mget i (fs_buf s) = Some v -> segment_of dconv (fs_log s) i v;
  i_block : fo_inOrder o = false -> fs_nextOrd s = 0;
  i_order : fo_inOrder o = true -> fs_nextOrd s = nlen (delivered (fs_log s));
  i_vals : Forall (fun ov => match ov with Some (d, _, _) => segno dconv d <> None | None => True end) (fs_vals s);
  i_good : good dconv (fs_log s) }.
Definition nsegok (s : fetcher) (l : list data) : Prop :=
  fs_nseg s = match last_final dconv l with Some f => toI64 ((f + 1) mod two64) | None => 0%Z end.
Definition ready (s : fetcher) : Prop := fo_inOrder o = true -> mget (fs_nextOrd s) (fs_buf s) = None.
Definition inv (s : fetcher) : Prop := inv0 s /\ nsegok s (V s) /\ ready s.

Lemma seg_more : forall a b i c, segment_of dconv a i c -> segment_of dconv (a ++ b) i c.
Proof. intros a b i c (d & I & S). exists d. split; auto. rewrite validated_app. apply in_app_iff. auto. Qed.
Lemma inv0_quiet : forall s s', inv0 s -> quiet s s' -> inv0 s'.
Proof.
  intros s s' [A B C D E G] (Qb & Qr & Qo & Qv & _ & _ & l & L & F). apply hushed_noise in F. destruct (noise_none l F) as [N1 N2].
  constructor.
  - intros i I. rewrite Qb, Qo. rewrite Qr in I. auto.
  - intros i v M. rewrite Qb in M. rewrite L. apply seg_more. auto.
  - rewrite Qo. auto.
  - intro H. rewrite Qo, L, delivered_app, N2, app_nil_r. auto.
  - rewrite Qv. auto.
  - rewrite L. apply good_noise; auto.
Qed.
Lemma quiet_V : forall s s', quiet s s' -> V s' = V s.
Proof. intros s s' (_ & _ & _ & _ & _ & _ & l & L & F). apply hushed_noise in F. destruct (noise_none l F) as [N1 N2]. now rewrite L, validated_app, N1, app_nil_r. Qed.
Lemma inv_quiet : forall s s', inv s -> quiet s s' -> fs_nseg s' = fs_nseg s -> inv s'.
Proof.
  intros s s' (I0 & N & R) Q E. split; [eapply inv0_quiet; eauto|]. split.
  - unfold nsegok. rewrite E, (quiet_V _ _ Q). exact N.
  - intro H. destruct Q as (Qb & _ & Qo & _). rewrite Qb, Qo. auto.
Qed.
Lemma fire_same : forall hs ob s, exists st, fs_log (fs_fire hs ob s) = (fs_log s ++ [ob]) ++ st /\ Forall noise st /\
  fs_buf (fs_fire hs ob s) = fs_buf s /\ fs_recv (fs_fire hs ob s) = fs_recv s /\ fs_nextOrd (fs_fire hs ob s) = fs_nextOrd s /\
  fs_vals (fs_fire hs ob s) = fs_vals s /\ fs_nseg (fs_fire hs ob s) = fs_nseg s.
Proof.
  intros hs ob s. unfold fs_fire. destruct (hs ob).
  - unfold fs_stop. cbn [fs_this wLog]. destruct (fs_this s).
    + exists [OStop]. cbn. splits; auto. constructor; cbn; auto.
    + exists []. cbn. splits; auto. now rewrite app_nil_r.
  - exists []. cbn. splits; auto. now rewrite app_nil_r.
Qed.
Definition dull (ob : fobs) : Prop := match ob with OReceived _ | ONacked | OTimedOut => True | _ => False end.
Lemma inv_fire : forall hs ob s, dull ob -> inv s -> inv (fs_fire hs ob s).
Proof.
  intros hs ob s D ([A B C O W G] & N & R). destruct (fire_same hs ob s) as (st & L & F & Hb & Hr & Ho & Hv & Hn). destruct (noise_none st F) as [N1 N2].
  assert (VV : validated (fs_log (fs_fire hs ob s)) = V s). { rewrite L, !validated_app, N1. destruct ob; cbn in *; try tauto; now rewrite !app_nil_r. }
  assert (DD : delivered (fs_log (fs_fire hs ob s)) = delivered (fs_log s)). { rewrite L, !delivered_app, N2. destruct ob; cbn in *; try tauto; now rewrite !app_nil_r. }
  split; [constructor|split].
  - intros i I. rewrite Hb, Ho. rewrite Hr in I. auto.
  - intros i v M. rewrite Hb in M. rewrite L. do 2 apply seg_more. auto.
  - rewrite Ho. auto.
  - intro H. rewrite Ho, DD. auto.
  - now rewrite Hv.
  - rewrite L. apply good_noise; auto. apply good_snoc; auto. destruct ob; cbn in *; tauto.
  - unfold nsegok. now rewrite Hn, VV.
  - intro H. rewrite Hb, Ho. auto.
Qed.
(* the end of a fetch *)
Lemma good_end : forall hs t s, good dconv (fs_log s) -> signal_ok dconv (fs_log s) t -> good dconv (fs_log (fs_stop (fs_fire hs t s))).
Proof.
  intros hs t s G S. rewrite fire_stop_log. change (t :: ?x) with ([t] ++ x). rewrite app_assoc. apply good_noise; [now apply good_snoc|].
  destruct (fs_this s); [constructor; cbn; auto|constructor].
Qed.
Definition outcome (s' : fetcher) : Prop := good dconv (fs_log s') /\ (fs_this s' = true -> inv s').
Lemma inv_outcome : forall s, inv s -> outcome s.
Proof. intros s I. split; auto. apply I. Qed.
Lemma error_outcome : forall hs c s, good dconv (fs_log s) -> outcome (fs_error hs c s).
Proof. intros hs c s G. split; [now apply good_end|]. unfold fs_error. rewrite stop_this. discriminate. Qed.
Lemma window_outcome : forall hs s s', inv s -> small_finals dconv (V s) -> nlen (fs_log s) < two64 -> fs_window conv o hs s = Ok s' -> outcome s'.
Proof.
  intros hs s s' I SF LN H. apply window_cases in H as [(Q & E & _)|(NZ & ALL & t & (s1 & Q & E & T & ->) & K)].
  - apply inv_outcome. eapply inv_quiet; eauto.
  - split; [|rewrite stop_this; discriminate].
    assert (I1 : inv s1) by (eapply inv_quiet; eauto). apply good_end; [apply I1|].
    destruct I as ([A B C D W G] & N & R). unfold nsegok in N. destruct (last_final dconv (V s)) as [f|] eqn:LF; [|lia].
    assert (f < 2 ^ 63 - 1). { clear - SF LF. revert SF LF. generalize (V s). intros l SF LF. induction l as [|d l IH]; cbn in LF; [discriminate|].
      destruct (last_final dconv l) as [g|]; [injection LF as ->; apply IH; auto; intros x h X; apply SF; now right|]. eapply SF; [left; reflexivity|auto]. }
    assert (NS : fs_nseg s = Z.of_N (f + 1)). { rewrite N, N.mod_small by (unfold two64; lia). unfold toI64. destruct (_ <? _) eqn:X; lia. }
    assert (TU : toU64 (fs_nseg s) = f + 1). { rewrite NS. unfold toU64. rewrite Z.mod_small by lia. lia. }
    rewrite TU in ALL. assert (VE : V s1 = V s) by now apply quiet_V.
    destruct K as [[Io ->]|[Io ->]]; cbn [signal_ok].
    + exists f. rewrite VE. split; auto. destruct Q as (Qb & _ & Qo & _ & _ & _ & l & L & F). apply hushed_noise in F. destruct (noise_none l F) as [_ N2].
      rewrite L, delivered_app, N2, app_nil_r. rewrite <- (D Io).
      destruct (N.le_gt_cases (fs_nextOrd s) f) as [LE|]; auto. exfalso.
      destruct (A (fs_nextOrd s)) as [X|X]; [apply ALL; lia|lia|]. apply X, R. auto.
    + set (g := fun i => match mget i (fs_buf s) with Some v => v | None => [] end).
      exists f, (map g (nseqN (Z.to_N (fs_nseg s)))). rewrite VE. splits; auto.
      * unfold nlen, nseqN. rewrite !map_length, seq_length. lia.
      * intros i c E2. rewrite nth_error_map in E2. unfold nseqN in E2. rewrite nth_error_map in E2.
        destruct (nth_error (seq 0 _) i) as [x|] eqn:X; [|discriminate]. cbn in E2. injection E2 as <-.
        assert (LI : (i < N.to_nat (Z.to_N (fs_nseg s)))%nat) by (rewrite <- (seq_length (N.to_nat (Z.to_N (fs_nseg s))) 0); apply nth_error_Some; congruence).
        assert (x = i). { rewrite (nth_error_nth' _ 0%nat) in X by now rewrite seq_length. rewrite seq_nth in X by auto. injection X. lia. } subst x.
        destruct (A (N.of_nat i)) as [Y|Y]; [apply ALL; lia|rewrite (C Io) in Y; lia|]. unfold g. destruct (mget (N.of_nat i) (fs_buf s)) as [v|] eqn:M; [|tauto].
        destruct Q as (_ & _ & _ & _ & _ & _ & l & -> & _). apply seg_more. now apply B.
Qed.
Lemma deliver_inv : forall hs fuel s s', fo_inOrder o = true -> inv0 s -> nsegok s (V s) -> mget (fs_nextOrd s) (fs_buf s) <> None -> nlen (fs_log s') < two64 - 1 ->
  fs_deliver hs fuel s = Ok s' -> inv s'.
Proof.
  intros hs. induction fuel as [|k IH]; intros s s' Io I0 N P LN H; cbn [fs_deliver] in H; [discriminate|].
  destruct (mget (fs_nextOrd s) (fs_buf s)) as [v|] eqn:M; [|tauto].
  set (s1 := fs_fire hs (OInOrder v) s) in *. destruct (fire_same hs (OInOrder v) s) as (st & L & F & Hb & Hr & Ho & Hv & Hn). fold s1 in L, Hb, Hr, Ho, Hv, Hn.
  set (s2 := wBuf _ _ s1) in *. destruct (noise_none st F) as [N1 N2].
  assert (LE : nlen (fs_log s2) <= nlen (fs_log s')).
  { destruct (mget (fs_nextOrd s2) (fs_buf s2)); [|injection H as <-; lia]. apply deliver_calm in H as (_ & (l & -> & _) & _). rewrite nlen_app. lia. }
  assert (LO : fs_nextOrd s < two64 - 1).
  { destruct I0 as [_ _ _ D _ _]. rewrite (D Io). change (fs_log s2) with (fs_log s1) in LE. rewrite L in LE. rewrite !nlen_app in LE. pose proof (nlen_delivered (fs_log s)). lia. }
  assert (O2 : fs_nextOrd s2 = fs_nextOrd s + 1). { cbn. rewrite Ho. apply N.mod_small. unfold two64 in *. lia. }
  assert (I2 : inv0 s2).
  { destruct I0 as [A B C D W G]. constructor.
    - intros i I. rewrite O2. cbn [fs_recv fs_buf s2 wBuf] in *. rewrite Hr in I. cbn. rewrite mget_remove, Hb, Ho. destruct (N.eqb_spec i (fs_nextOrd s)); [lia|].
      destruct (A i I); [left; lia|auto].
    - intros i w X. cbn in X. rewrite mget_remove, Hb in X. destruct (_ =? _); [discriminate|]. change (fs_log s2) with (fs_log s1). rewrite L. do 2 apply seg_more. auto.
    - congruence.
    - intros _. rewrite O2. change (fs_log s2) with (fs_log s1). rewrite L, !delivered_app, N2. cbn [delivered]. rewrite app_nil_r, nlen_app, <- (D Io). unfold nlen. cbn. lia.
    - change (fs_vals s2) with (fs_vals s1). now rewrite Hv.
    - change (fs_log s2) with (fs_log s1). rewrite L. apply good_noise; auto. apply good_snoc; auto. cbn. rewrite <- (D Io). apply B. auto. }
  assert (NN : nsegok s2 (V s2)). { unfold nsegok. change (fs_nseg s2) with (fs_nseg s1). change (fs_log s2) with (fs_log s1). rewrite Hn, L, !validated_app, N1. cbn. rewrite !app_nil_r. exact N. }
  destruct (mget (fs_nextOrd s2) (fs_buf s2)) eqn:M2.
  - eapply IH; [| | | |exact LN|exact H]; auto. congruence.
  - injection H as <-. split; auto. split; auto. intros _. exact M2.
Qed.
Lemma overlay_same : forall new old v, nlen old = nlen new -> overlay new old = Ok v -> v = new.
Proof. intros new old v E H. unfold overlay in H. destruct (_ <? _); [discriminate|]. injection H as <-. rewrite ndrop_all by lia. now rewrite app_nil_r. Qed.
Lemma validated_outcome : forall hs d uid m now s s', fs_this s = true -> inv s -> segno dconv d <> None ->
  fs_validated conv dconv o hs d uid m now s = Ok s' ->
  same_sizes dconv (V s') -> small_finals dconv (V s') -> nlen (fs_log s') < two64 - 1 -> outcome s'.
Proof.
  intros hs d uid m now s s' T I SG H SS SF LN.
  assert (LOGS : exists l, fs_log s' = fs_log s ++ l) by (eapply shape_log, validated_shape; exact H).
  apply validated_split in H as (c & cur & k & p & rest & v & r & NL & K & FL & VB & VF & R); auto.
  assert (SD : segno dconv d = Some cur).
  { unfold segno in *. unfold nm_last in NL. destruct (rev (n_comps (d_name d))); [discriminate|]. injection NL as ->. destruct (isKind _ _ _); [|tauto]. now rewrite K. }
  set (s0 := vstart cur now v k s) in *. set (s1 := fs_fire hs (OValidated d) s0) in *.
  destruct (fire_same hs (OValidated d) s0) as (st & L & F & Hb & Hr & Ho & Hv & Hn). fold s1 in L, Hb, Hr, Ho, Hv, Hn. destruct (noise_none st F) as [N1 N2].
  change (fs_log s0) with (fs_log s) in L. change (fs_nextOrd s0) with (fs_nextOrd s) in Ho. change (fs_vals s0) with (fs_vals s) in Hv. change (fs_nseg s0) with (fs_nseg s) in Hn.
  change (fs_recv s0) with (sinsert cur (fs_recv s)) in Hr. change (fs_buf s0) with (minsert cur v (fs_buf s)) in Hb.
  assert (V1 : V s1 = V s ++ [d]). { rewrite L, !validated_app, N1. cbn. now rewrite app_nil_r. }
  assert (D1 : delivered (fs_log s1) = delivered (fs_log s)). { rewrite L, !delivered_app, N2. cbn. now rewrite !app_nil_r. }
  (* the log from here on *)
  assert (MORE : exists l, fs_log s' = fs_log s1 ++ l).
  { unfold vfinal in VF. destruct r as [s2|s2].
    - destruct (mi_final (d_meta d)) as [f|]; [|discriminate]. destruct (negb _); [|destruct (toKind _ _ f); [|discriminate]; cbn [bind] in VF; destruct (_ =? _); [discriminate|]; destruct (fs_cancelExcess _); discriminate].
      injection VF as <-. subst s'. unfold fs_error. rewrite fire_stop_log. eauto.
    - assert (X : fs_log s2 = fs_log s1).
      { destruct (mi_final (d_meta d)) as [f|]; [|now injection VF as ->]. destruct (negb _); [discriminate|]. destruct (toKind _ _ f); [|discriminate]. cbn [bind] in VF. destruct (_ =? _); [now injection VF as ->|].
        unfold fs_cancelExcess in VF. destruct (_ <? _)%Z; [discriminate|]. cbn [bind] in VF. injection VF as <-. reflexivity. }
      rewrite <- X. eapply shape_log, vgo_shape; exact R. }
  destruct MORE as [more MO].
  assert (V' : V s' = (V s ++ [d]) ++ validated more) by now rewrite MO, validated_app, V1.
  assert (VV : v = c_val (d_content d)).
  { unfold vbuf in VB. destruct (mget cur (fs_buf s)) as [old|] eqn:M; [|now injection VB as <-].
    eapply overlay_same; [|exact VB]. destruct I as ([_ B _ _ _ _] & _). destruct (B _ _ M) as (d' & X & Y & <-). apply SS.
    - rewrite V', !in_app_iff. auto.
    - rewrite V', !in_app_iff. cbn. auto.
    - congruence. }
  destruct I as ([A B C D W G] & N & RD).
  assert (I1 : inv0 s1).
  { constructor.
    - intros i X. rewrite Hr, in_sinsert in X. rewrite Ho, Hb, mget_insert. destruct (N.eqb_spec i cur); [right; discriminate|]. destruct X; [tauto|auto].
    - intros i w X. rewrite Hb, mget_insert in X. destruct (N.eqb_spec i cur) as [->|].
      + injection X as <-. exists d. rewrite V1, in_app_iff. cbn. auto.
      + rewrite L. do 2 apply seg_more. auto.
    - intro X. rewrite Ho. auto.
    - intro X. rewrite Ho, D1. auto.
    - rewrite Hv. auto.
    - rewrite L. apply good_noise; auto. apply good_snoc; auto. cbn. auto. }
  assert (R1 : fo_inOrder o = true -> mget (fs_nextOrd s1) (fs_buf s1) <> None -> fs_nextOrd s1 = cur).
  { intros Io X. rewrite Hb, mget_insert in X. destruct (N.eqb_spec (fs_nextOrd s1) cur); auto. rewrite Ho in X. rewrite (RD Io) in X. tauto. }
  clear A B C D W G.
  destruct r as [s2|s2].
  { subst s2. unfold vfinal in VF. destruct (mi_final (d_meta d)) as [f|]; [|discriminate]. destruct (negb _); [|destruct (toKind _ _ f); [|discriminate]; cbn [bind] in VF; destruct (_ =? _); [discriminate|]; destruct (fs_cancelExcess _); discriminate].
    injection VF as <-. apply error_outcome. apply I1. }
  assert (S2 : quiet s1 s2 /\ nsegok s2 (V s1)).
  { unfold vfinal in VF. unfold nsegok. rewrite V1, last_final_snoc. unfold finalno. destruct (mi_final (d_meta d)) as [f|].
    - destruct (negb (isKind dconv KSegment f)); [discriminate|]. destruct (toKind dconv KSegment f) as [last|]; [|discriminate]. cbn [bind] in VF.
      assert (LT : (last + 1) mod two64 < two64) by (apply N.mod_lt; discriminate).
      destruct (N.eqb_spec ((last + 1) mod two64) (toU64 (fs_nseg s1))) as [EQ|NE].
      + injection VF as <-. split; [apply quiet_refl|]. rewrite EQ. symmetry. apply toI64_U64. rewrite Hn, N. destruct (last_final dconv (V s)); [|lia]. apply toI64_range, N.mod_lt. discriminate.
      + destruct (fs_cancelExcess _) as [x|] eqn:X; cbn [bind] in VF; [|discriminate]. injection VF as <-. apply quiet_excess in X as (Q & NS & _). split; [|exact NS].
        eapply quiet_trans; [|exact Q]. apply quiet_same; auto.
    - injection VF as <-. split; [apply quiet_refl|]. now rewrite Hn. }
  destruct S2 as [Q2 N2']. assert (I2 : inv0 s2) by (eapply inv0_quiet; eauto). assert (V2 : V s2 = V s1) by now apply quiet_V. rewrite <- V2 in N2'.
  assert (R2 : fo_inOrder o = true -> mget (fs_nextOrd s2) (fs_buf s2) <> None -> fs_nextOrd s2 = cur).
  { destruct Q2 as (Qb & _ & Qo & _). rewrite Qb, Qo. exact R1. }
  clear VF. unfold vgo in R.
  destruct (if fo_inOrder o && _ then _ else _) as [s3|] eqn:E3; cbn [bind] in R; [|discriminate].
  match type of R with context [fs_highData ?X] => set (s4 := X) in * end.
  match type of R with context [if _ then fs_winDec o ?X else _] => set (s5 := X) in * end.
  destruct (if m && _ then _ else _) as [s6|] eqn:E6; cbn [bind] in R; [|discriminate].
  assert (Q4 : quiet s3 s4 /\ fs_nseg s4 = fs_nseg s3). { unfold s4. destruct (fs_recv s3) as [|x [|]]; try (split; [apply quiet_refl|reflexivity]). destruct (cur =? 0); (split; [apply quiet_same; auto|reflexivity]). }
  assert (Q5 : quiet s4 s5 /\ fs_nseg s5 = fs_nseg s4). { unfold s5. destruct (_ <? _); [split; [apply quiet_same; auto|reflexivity]|split; [apply quiet_refl|reflexivity]]. }
  assert (Q6 : quiet s5 s6 /\ fs_nseg s6 = fs_nseg s5). { destruct (m && _); [apply quiet_winDec in E6 as (Q & X & _)|apply quiet_winInc in E6 as (Q & X & _)]; auto. }
  assert (Q36 : quiet s3 s6) by (eapply quiet_trans; [apply Q4|]; eapply quiet_trans; [apply Q5|apply Q6]).
  assert (L6 : exists l, fs_log s' = fs_log s6 ++ l).
  { eapply shape_log, window_shape; exact R. }
  destruct L6 as [l6 L6]. destruct Q36 as (Qb & Qr & Qo & Qv & Qt & Qh & l36 & L36 & F36).
  assert (I3 : inv s3).
  { destruct (fo_inOrder o) eqn:Io; cbn [andb] in E3.
    - destruct (N.eqb_spec (fs_nextOrd s2) cur) as [EQ|NE].
      + eapply deliver_inv; [| | | | |exact E3]; auto.
        * destruct Q2 as (Qb2 & _ & Qo2 & _). rewrite EQ, Qb2, Hb, mget_insert, N.eqb_refl. discriminate.
        * rewrite L6, L36, !nlen_app in LN. lia.
      + injection E3 as <-. split; auto. split; auto. unfold ready. intros _. destruct (mget (fs_nextOrd s2) (fs_buf s2)) eqn:X; auto. exfalso. apply NE, R2; auto. discriminate.
    - injection E3 as <-. split; auto. split; auto. intro X. congruence. }
  eapply window_outcome; [| | |exact R].
  - eapply inv_quiet; [eapply inv_quiet; [eapply inv_quiet; [exact I3|apply Q4|apply Q4]|apply Q5|apply Q5]|apply Q6|apply Q6].
  - intros x f X. apply SF. rewrite L6, validated_app, in_app_iff. auto.
  - rewrite L6, nlen_app in LN. unfold two64 in *. lia.
Qed.
Lemma retry_outcome : forall hs n now s s', inv s -> fs_retry conv dconv o hs n now s = Ok s' -> small_finals dconv (V s') -> nlen (fs_log s') < two64 -> outcome s'.
Proof.
  intros hs n now s s' I H SF LN. unfold fs_retry in H. destruct (_ <=? now)%Z; [injection H as <-; apply error_outcome, I|].
  destruct (fs_pend s) as [|f l] eqn:P; [discriminate|].
  match type of H with bind ?X _ = _ => destruct X as [kp|] end; cbn [bind] in H; [|discriminate].
  match type of H with context [fs_recv (wPend ?X s)] => set (s1 := wPend X s) in * end.
  assert (I1 : inv s1) by (eapply inv_quiet; [exact I|apply quiet_same; auto|auto]).
  destruct (fs_recv s1).
  - unfold fs_first in H. apply quiet_send in H as (Q & X & _). apply inv_outcome. eapply inv_quiet; eauto.
  - destruct (fs_winDec o s1) as [s2|] eqn:W; cbn [bind] in H; [|discriminate]. apply quiet_winDec in W as (Q & X & _).
    assert (L6 : exists l, fs_log s' = fs_log s2 ++ l).
    { change (fs_log s2) with (fs_log (wRetx (fs_retx s2 ++ [fst kp]) s2)). eapply shape_log, window_shape; exact H. }
    destruct L6 as [l6 L6]. eapply window_outcome; [| | |exact H].
    + eapply inv_quiet; [exact I1| |]; [eapply quiet_trans; [exact Q|apply quiet_same; auto]|exact X].
    + intros d g Y. apply SF. rewrite L6, validated_app, in_app_iff. auto.
    + cbn. rewrite L6, nlen_app in LN. lia.
Qed.
Lemma inv_data : forall hs d m s s', inv s -> fs_data dconv hs d m s = Ok s' -> outcome s'.
Proof.
  intros hs d m s s' I H. unfold fs_data in H. destruct (negb (fs_this s)); [injection H as <-; now apply inv_outcome|].
  destruct (_ <=? _)%Z; [discriminate|]. destruct (nm_last (d_name d)) as [c|] eqn:NL; [|discriminate].
  assert (I1 : inv (wInfl (fs_infl s - 1)%Z s)) by (eapply inv_quiet; [exact I|apply quiet_same; auto|auto]).
  destruct (isKind dconv KSegment c) eqn:IK; cbn [negb] in H.
  2:{ injection H as <-. apply error_outcome, I1. }
  destruct (toKind dconv KSegment c) as [cur|] eqn:TK; cbn [bind] in H; [|discriminate].
  match type of H with (match ?X with Some _ => _ | None => _ end) = _ => destruct X as [[k p]|] end; injection H as <-; [|now apply inv_outcome].
  match goal with |- context [fs_fire hs _ ?X] => set (s2 := X) in * end.
  assert (I2 : inv s2) by (eapply inv_quiet; [exact I1|apply quiet_same; auto|auto]).
  apply (inv_fire hs (OReceived d)) in I2; [|exact Logic.I]. set (s3 := fs_fire hs (OReceived d) s2) in *. clearbody s3. clear - I2 NL IK TK.
  apply inv_outcome. destruct I2 as ([A B C D W G] & N & R). split; [constructor; auto|split; auto].
  cbn. apply Forall_app. split; auto. constructor; auto. unfold segno. unfold nm_last in NL. destruct (rev _); [discriminate|]. injection NL as ->. rewrite IK, TK. discriminate.
Qed.
Lemma Forall_replace : forall A (P : A -> Prop) i x l, P x -> Forall P l -> Forall P (replace_nth i x l).
Proof.
  intros A P i x l Px F. unfold replace_nth. apply Forall_app. split; [|constructor; auto].
  - rewrite <- (firstn_skipn i l) in F. now apply Forall_app in F.
  - rewrite <- (firstn_skipn (S i) l) in F. now apply Forall_app in F.
Qed.
Lemma inv_vals : forall i s, inv s -> inv (wVals (replace_nth i None (fs_vals s)) s).
Proof. intros i s ([A B C D W G] & N & R). split; [constructor; auto|split; auto]. cbn. apply Forall_replace; auto. Qed.
Lemma step_outcome : forall e s s', outcome s -> fs_step conv dconv o e s = Ok s' ->
  same_sizes dconv (V s') -> small_finals dconv (V s') -> nlen (fs_log s') < two64 - 1 -> outcome s'.
Proof.
  intros [e hs] s s' (G & I) H SS SF LN. destruct (fs_this s) eqn:T.
  2:{ destruct (step_stopped conv dconv o (e, hs) s T) as (s1 & E & T1 & L1). rewrite E in H. injection H as ->. split; [rewrite L1; auto|congruence]. }
  specialize (I eq_refl). unfold fs_step in H. cbn [fst snd] in *. destruct e as [id d m|id r now|id now|v now|v|].
  - destruct (nth_error (fs_reqs s) id); [eapply inv_data; eauto|]. injection H as <-. now apply inv_outcome.
  - destruct (nth_error (fs_reqs s) id) as [n|]; [|injection H as <-; now apply inv_outcome]. unfold fs_nack in H. rewrite T in H. cbn [negb] in H.
    apply (inv_fire hs ONacked) in I; [|exact Logic.I]. set (s1 := fs_fire hs ONacked s) in *. destruct (_ <=? _)%Z; [discriminate|].
    assert (I1 : inv (wInfl (fs_infl s1 - 1)%Z s1)) by (eapply inv_quiet; [exact I|apply quiet_same; auto|auto]).
    destruct (_ || _); [eapply retry_outcome; [exact I1|exact H|auto|unfold two64 in *; lia]|]. injection H as <-. apply error_outcome, I1.
  - destruct (has_timer id s); [|injection H as <-; now apply inv_outcome].
    destruct (nth_error (fs_reqs s) id) as [n|]; [|injection H as <-; now apply inv_outcome].
    set (s0 := wPend _ s) in *. assert (I0 : inv s0) by (eapply inv_quiet; [exact I|apply quiet_same; auto|auto]).
    unfold fs_timeout in H. change (fs_this s0) with (fs_this s) in H. rewrite T in H. cbn [negb] in H.
    apply (inv_fire hs OTimedOut) in I0; [|exact Logic.I]. set (s1 := fs_fire hs OTimedOut s0) in *. destruct (_ <=? _)%Z; [discriminate|].
    eapply retry_outcome; [|exact H|auto|unfold two64 in *; lia]. eapply inv_quiet; [exact I0|apply quiet_same; auto|auto].
  - destruct (nth_error (fs_vals s) v) as [[[[d uid] m]|]|] eqn:NE; try (injection H as <-; now apply inv_outcome).
    eapply validated_outcome; [| | |exact H|auto|auto|auto].
    + exact T.
    + now apply inv_vals.
    + destruct I as ([_ _ _ _ W _] & _). apply nth_error_In in NE. rewrite Forall_forall in W. exact (W _ NE).
  - destruct (nth_error (fs_vals s) v) as [[[[d uid] m]|]|] eqn:NE; try (injection H as <-; now apply inv_outcome).
    injection H as <-. unfold fs_invalid. cbn [fs_this wVals]. rewrite T. cbn [negb]. apply error_outcome. apply I.
  - injection H as <-. split; [|rewrite stop_this; discriminate]. unfold fs_stop. rewrite T. cbn. apply good_noise; [apply I|]. constructor; cbn; auto.
Qed.
Lemma step_log : forall e s s', fs_step conv dconv o e s = Ok s' -> exists l, fs_log s' = fs_log s ++ l.
Proof.
  intros e s s' H. eapply shape_log, step_shape; exact H.
Qed.
Lemma run_log : forall l s s', fs_run conv dconv o l s = Ok s' -> exists m, fs_log s' = fs_log s ++ m.
Proof.
  induction l as [|e l IH]; intros s s' H; cbn [fs_run] in H; [injection H as <-; exists []; now rewrite app_nil_r|].
  destruct (fs_step conv dconv o e s) as [s1|] eqn:E; cbn [bind] in H; [|discriminate]. apply step_log in E as [a A]. apply IH in H as [b B]. exists (a ++ b). now rewrite B, A, app_assoc.
Qed.
Lemma run_outcome : forall l s s', outcome s -> fs_run conv dconv o l s = Ok s' ->
  same_sizes dconv (V s') -> small_finals dconv (V s') -> nlen (fs_log s') < two64 - 1 -> outcome s'.
Proof.
  induction l as [|e l IH]; intros s s' O H SS SF LN; cbn [fs_run] in H; [now injection H as <-|].
  destruct (fs_step conv dconv o e s) as [s1|] eqn:E; cbn [bind] in H; [|discriminate]. destruct (run_log _ _ _ H) as [m M].
  eapply IH; [|exact H|auto|auto|auto]. eapply step_outcome; [exact O|exact E| | |].
  - intros x y X Y. apply SS; rewrite M, validated_app, in_app_iff; auto.
  - intros x f X. apply SF. rewrite M, validated_app, in_app_iff; auto.
  - rewrite M, nlen_app in LN. lia.
Qed.
Lemma start_outcome : forall base now s, fs_start dconv o base now = Ok s -> outcome s.
Proof.
  intros base now s H. unfold fs_start in H. destruct (fopts_ok o); [|discriminate]. unfold fs_first in H.
  apply quiet_send in H as (Q & N & T). apply inv_outcome. eapply inv_quiet; [|exact Q|exact N].
  split; [constructor|split]; cbn; auto; try discriminate; try tauto. apply good_nil. reflexivity. intros _. reflexivity.
Qed.
Lemma fetch_good : forall base now l s, fs_fetch conv dconv o base now l = Ok s ->
  same_sizes dconv (V s) -> small_finals dconv (V s) -> nlen (fs_log s) < two64 - 1 -> good dconv (fs_log s).
Proof.
  intros base now l s H SS SF LN. unfold fs_fetch in H. destruct (fs_start dconv o base now) as [s0|] eqn:E; cbn [bind] in H; [|discriminate].
  apply start_outcome in E. exact (proj1 (run_outcome _ _ _ E H SS SF LN)).
Qed.
End F.
