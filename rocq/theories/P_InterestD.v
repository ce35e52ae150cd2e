(* The exact domain and result of Interest decoding. *)
From Coq Require Import Lia ZifyBool ZifyNat ZifyN.
From Verif Require Import Base BaseLemmas M_Tlv P_Tlv S_Tlv P_Block M_Str M_Name S_Name P_Name P_NameUri M_Packet S_Packet P_Packet P_Data P_DataT.
From Verif Require Import M_Interest S_Interest P_Interest.

Lemma find_split : forall A (f : A -> bool) l x, List.find f l = Some x ->
  exists a b, l = a ++ x :: b /\ Forall (fun y => f y = false) a /\ f x = true.
Proof.
  induction l as [|y l IH]; intros x H; [discriminate|]. cbn in H. destruct (f y) eqn:F.
  - injection H as <-. exists [], l. auto.
  - apply IH in H as (a & b & -> & Fa & Fx). exists (y :: a), b. auto.
Qed.
Lemma find_app_split : forall A (f : A -> bool) a x b, Forall (fun y => f y = false) a -> f x = true ->
  List.find f (a ++ x :: b) = Some x.
Proof. induction a as [|y a IH]; intros x b F H; cbn; [now rewrite H|]. apply Forall_cons_iff in F as [-> F]. auto. Qed.

Lemma fh_decode_iff : forall es l, fh_decode es = Ok l <-> hint_reads es l.
Proof.
  induction es as [|e es IH]; intro l; cbn [fh_decode].
  - split; [intros [= <-]; constructor|inversion 1; auto].
  - unfold tName. split.
    + destruct (N.eqb_spec (e_type e) 7) as [T|T].
      { intro H. inv_bind H. inv_bind H. injection H as <-. constructor; auto. now apply IH. }
      destruct (N.eqb_spec (e_type e) 31) as [T'|T'].
      { intro H. inv_bind H. inv_bind H. inv_bind H. inv_bind H. injection H as <-.
        unfold of_opt in E0. destruct (List.find _ a) as [x|] eqn:Fi; [|discriminate]. injection E0 as ->.
        apply find_split in Fi as (p & z & -> & Fa & Fx). eapply hr_delegation; eauto; [|now apply IH].
        eapply Forall_impl; [|exact Fa]. cbn. intros y Hy. lia. }
      destruct (isCriticalType (e_type e)) eqn:C; [discriminate|]. intro H. apply hr_other; auto; [|now apply IH].
      now apply isCritical_false.
    + inversion 1 as [|? n ? ns D R|? a x b n ? ns T P Fa D R|? ? ? T C R]; subst.
      * assert (T : e_type e = 7) by (apply nm_decode_keys in D; apply D). rewrite T. cbn [N.eqb Pos.eqb]. 
        rewrite D. cbn [bind]. apply IH in R. now rewrite R.
      * rewrite T. cbn [N.eqb Pos.eqb]. rewrite P. cbn [bind].
        assert (Tx : e_type x = 7) by (apply nm_decode_keys in D; apply D).
        rewrite find_app_split; [|eapply Forall_impl; [|exact Fa]; cbn; intros; lia|lia]. cbn [of_opt bind].
        rewrite D. cbn [bind]. apply IH in R. now rewrite R.
      * destruct (N.eqb_spec (e_type e) 7); [lia|].
        destruct (N.eqb_spec (e_type e) 31) as [E31|]; [exfalso; apply C; rewrite E31; left; lia|].
        apply isCritical_false in C. rewrite C. now apply IH.
Qed.

Lemma readNNIBlock_iff : forall e n, readNNIBlock e = Ok n <-> is_nni n (e_val e).
Proof.
  intros e n. unfold readNNIBlock. split.
  - intro H. inv_bind H. destruct a as [m r]. apply readNNI_iff in E as (d & Hd & L & Hv).
    assert (r = []).
    { apply (f_equal nlen) in Hv. rewrite nlen_app, L in Hv. apply nlen_0. lia. }
    subst r. rewrite app_nil_r in Hv. subst d. cbn in H. congruence.
  - intro H. assert (E : readNonNegativeInteger (nlen (e_val e)) (e_val e) = Ok (n, [])).
    { apply readNNI_iff. exists (e_val e). rewrite app_nil_r. auto. }
    rewrite E. reflexivity.
Qed.

Definition all_rank (k : N) (o : option elem) : Prop := forall e, o = Some e -> in_rank (e_type e) = k.
Ltac rk R e := let H := fresh in specialize (R e eq_refl); destruct (rank_cases (e_type e)) as [H|[H|[H|[H|[H|[H|[H|H]]]]]]]; try lia; destruct H as [H _].
Section Apply.
Variables (n : name) (cbp mbf : bool) (fh : list name) (nonce : option bytes) (life : N) (hop : option byte) (par : list elem) (w : option elem).
Lemma ap2 : forall o i1, all_rank 2 o ->
  (apply_opt o (mkInt n cbp mbf fh nonce life hop par w) = Some i1 <->
   (forall e, o = Some e -> e_type e = 33 /\ e_val e = []) /\ i1 = mkInt n (is_some o || cbp) mbf fh nonce life hop par w).
Proof.
  intros [e|] i1 R; cbn [apply_opt is_some orb]; [|split; [intros [= <-]; split; auto; discriminate|intros [_ ->]; auto]].
  rk R e. unfold app_field. rewrite H. cbn [N.eqb Pos.eqb]. destruct (N.eqb_spec (nlen (e_val e)) 0) as [Z|Z].
  - split; [intros [= <-]|intros [_ ->]; auto]. split; auto. intros x [= <-]. split; auto. now apply nlen_0.
  - split; [discriminate|]. intros [Q _]. specialize (Q e eq_refl) as [_ Q]. rewrite Q in Z. now elim Z.
Qed.
Lemma ap3 : forall o i1, all_rank 3 o ->
  (apply_opt o (mkInt n cbp mbf fh nonce life hop par w) = Some i1 <->
   (forall e, o = Some e -> e_type e = 18 /\ e_val e = []) /\ i1 = mkInt n cbp (is_some o || mbf) fh nonce life hop par w).
Proof.
  intros [e|] i1 R; cbn [apply_opt is_some orb]; [|split; [intros [= <-]; split; auto; discriminate|intros [_ ->]; auto]].
  rk R e. unfold app_field. rewrite H. cbn [N.eqb Pos.eqb]. destruct (N.eqb_spec (nlen (e_val e)) 0) as [Z|Z].
  - split; [intros [= <-]|intros [_ ->]; auto]. split; auto. intros x [= <-]. split; auto. now apply nlen_0.
  - split; [discriminate|]. intros [Q _]. specialize (Q e eq_refl) as [_ Q]. rewrite Q in Z. now elim Z.
Qed.
Lemma ap4 : forall o i1, all_rank 4 o ->
  (apply_opt o (mkInt n cbp mbf [] nonce life hop par w) = Some i1 <->
   (forall e, o = Some e -> e_type e = 30) /\ exists l, i1 = mkInt n cbp mbf l nonce life hop par w /\
   match o with None => l = [] | Some x => exists sub, parseValue (e_val x) = Ok sub /\ hint_reads sub l end).
Proof.
  intros [e|] i1 R; cbn [apply_opt]; [|split; [intros [= <-]; split; eauto; discriminate|intros [_ (l & -> & ->)]; auto]].
  rk R e. unfold app_field. rewrite H. cbn [N.eqb Pos.eqb].
  destruct (parseValue (e_val e)) as [sub|]; cbn [bind].
  - destruct (fh_decode sub) as [l|] eqn:D.
    + apply fh_decode_iff in D. split.
      * intros [= <-]. split; [intros x [= <-]; auto|]. exists l. split; auto. exists sub. auto.
      * intros [_ (l' & -> & sub' & [= <-] & Hr)]. apply fh_decode_iff in Hr, D. now replace l' with l by congruence.
    + split; [discriminate|]. intros [_ (l' & -> & sub' & [= <-] & Hr)]. apply fh_decode_iff in Hr. congruence.
  - split; [discriminate|]. intros [_ (l' & -> & sub' & ? & Hr)]. congruence.
Qed.
Lemma ap5 : forall o i1, all_rank 5 o ->
  (apply_opt o (mkInt n cbp mbf fh None life hop par w) = Some i1 <->
   (forall e, o = Some e -> e_type e = 10 /\ nlen (e_val e) = 4) /\ i1 = mkInt n cbp mbf fh (option_map e_val o) life hop par w).
Proof.
  intros [e|] i1 R; cbn [apply_opt option_map]; [|split; [intros [= <-]; split; auto; discriminate|intros [_ ->]; auto]].
  rk R e. unfold app_field. rewrite H. cbn [N.eqb Pos.eqb]. destruct (N.eqb_spec (nlen (e_val e)) 4) as [Z|Z].
  - split; [intros [= <-]|intros [_ ->]; auto]. split; auto. intros x [= <-]. split; auto.
  - split; [discriminate|]. intros [Q _]. specialize (Q e eq_refl) as [_ Q]. now elim Z.
Qed.
Lemma ap6 : forall o i1, all_rank 6 o ->
  (apply_opt o (mkInt n cbp mbf fh nonce life hop par w) = Some i1 <->
   (forall e, o = Some e -> e_type e = 12) /\ exists v, i1 = mkInt n cbp mbf fh nonce v hop par w /\
   match o with None => v = life | Some x => is_nni v (e_val x) end).
Proof.
  intros [e|] i1 R; cbn [apply_opt]; [|split; [intros [= <-]; split; eauto; discriminate|intros [_ (l & -> & ->)]; auto]].
  rk R e. unfold app_field. rewrite H. cbn [N.eqb Pos.eqb].
  destruct (readNNIBlock e) as [v|] eqn:D.
  - pose proof D as D'. apply readNNIBlock_iff in D'. split.
    + intros [= <-]. split; [intros x [= <-]; auto|eauto].
    + intros [_ (l' & -> & Hr)]. apply readNNIBlock_iff in Hr. now replace l' with v by congruence.
  - split; [discriminate|]. intros [_ (l' & -> & Hr)]. apply readNNIBlock_iff in Hr. congruence.
Qed.
Lemma ap7 : forall hs i1, Forall (fun e => e_type e = 34) hs ->
  (apply_opt (match hs with [] => None | e :: _ => Some e end) (mkInt n cbp mbf fh nonce life None par w) = Some i1 <->
   exists v, i1 = mkInt n cbp mbf fh nonce life v par w /\
   match hs with [] => v = None | x :: _ => exists h, e_val x = [h] /\ v = Some h end).
Proof.
  intros [|e hs] i1 R; cbn [apply_opt]; [split; [intros [= <-]; eauto|intros (l & -> & ->); auto]|].
  apply Forall_cons_iff in R as [H _]. unfold app_field. rewrite H. cbn [N.eqb Pos.eqb].
  destruct (e_val e) as [|h [|]].
  - split; [discriminate|]. intros (? & _ & h & ? & _). discriminate.
  - split; [intros [= <-]|intros (v & -> & h' & [= <-] & ->); auto]. eexists. split; [reflexivity|]. eauto.
  - split; [discriminate|]. intros (? & _ & h' & ? & _). discriminate.
Qed.
End Apply.

Lemma Forall_filter_rec : forall pre, Forall (fun e => e_type e <> 36) pre ->
  Forall (fun e => recI e = true /\ e_type e <> 36) (filter recI pre).
Proof.
  intros pre F. apply Forall_forall. intros x Hx. apply filter_In in Hx as [I R]. rewrite Forall_forall in F. auto.
Qed.
Lemma rank_type : forall o k t, all_rank k o -> in_rank t = k -> k <> 0 -> forall e, o = Some e -> e_type e = t.
Proof.
  intros o k t R K Z e E. specialize (R e E). pose proof (rank_cases t). pose proof (rank_cases (e_type e)). lia.
Qed.
Lemma all_rank_type : forall o k t, in_rank t = k -> (forall e, o = Some e -> e_type e = t) -> all_rank k o.
Proof. intros o k t K H e E. now rewrite (H e E). Qed.
Lemma Forall_opt : forall (P : elem -> Prop) o, (forall e, o = Some e -> P e) -> Forall P (opt_list o).
Proof. intros P [e|] H; cbn; auto. Qed.

Lemma loop_iff : forall n w es i', 
  in_loop es 1 (mkInt n false false [] None DEFAULT_LIFETIME None [] w) = (i', None) <->
  exists cbp mbf fh nonce life hops ap post, in_layout es cbp mbf fh nonce life hops ap post /\
    i_name i' = n /\ i_cbp i' = is_some cbp /\ i_mbf i' = is_some mbf /\
    match fh with
    | None => i_fh i' = []
    | Some x => exists sub, parseValue (e_val x) = Ok sub /\ hint_reads sub (i_fh i')
    end /\
    i_nonce i' = option_map e_val nonce /\
    match life with None => i_life i' = 4000 | Some x => is_nni (i_life i') (e_val x) end /\
    match hops with [] => i_hop i' = None | x :: _ => exists h, e_val x = [h] /\ i_hop i' = Some h end /\
    i_params i' = opt_list ap ++ filter (fun x => negb ((e_type x =? 34) || (e_type x =? 36))) post /\
    i_wire i' = w.
Proof.
  intros n w es i'. split.
  - intro H. destruct (split_type 36 es) as [pre tl] eqn:Sp.
    apply split_type_spec in Sp as (-> & Np & Ht).
    assert (HT : tail_ok tl) by (destruct tl; auto).
    apply loop_filter in H as [NC H]; auto. pose proof (Forall_filter_rec pre Np) as FR.
    remember (filter recI pre) as rs eqn:Ers.
    apply loop_stage in H as (o2 & rs2 & i2 & E2 & R2 & _ & A2 & H); auto; try lia.
    rewrite E2, Forall_app in FR. destruct FR as [_ FR].
    apply loop_stage in H as (o3 & rs3 & i3 & E3 & R3 & _ & A3 & H); auto; try lia.
    rewrite E3, Forall_app in FR. destruct FR as [_ FR].
    apply loop_stage in H as (o4 & rs4 & i4 & E4 & R4 & _ & A4 & H); auto; try lia.
    rewrite E4, Forall_app in FR. destruct FR as [_ FR].
    apply loop_stage in H as (o5 & rs5 & i5 & E5 & R5 & _ & A5 & H); auto; try lia.
    rewrite E5, Forall_app in FR. destruct FR as [_ FR].
    apply loop_stage in H as (o6 & rs6 & i6 & E6 & R6 & _ & A6 & H); auto; try lia.
    rewrite E6, Forall_app in FR. destruct FR as [_ FR].
    change (1 + 1 + 1 + 1 + 1 + 1) with 6 in H. apply loop_hops in H as [F34 (i7 & A7 & H)]; auto.
    apply ap2 in A2 as [T2 ->]; [|exact R2]. apply ap3 in A3 as [T3 ->]; [|exact R3].
    apply ap4 in A4 as [T4 (l & -> & Hl)]; [|exact R4]. apply ap5 in A5 as [T5 ->]; [|exact R5].
    apply ap6 in A6 as [T6 (v & -> & Hv)]; [|exact R6]. apply ap7 in A7 as (h & -> & Hh); [|exact F34].
    destruct tl as [|ap post].
    + cbn in H. injection H as <-. exists o2, o3, o4, o5, o6, rs6, None, [].
      cbn [i_name i_cbp i_mbf i_fh i_nonce i_life i_hop i_params i_wire]. rewrite !orb_false_r. splits; auto.
      constructor; auto; try discriminate. exists pre. splits; auto. unfold recI in Ers. now rewrite <- Ers, E2, E3, E4, E5, E6.
    + cbn in Ht. apply loop_cons in H as [(_ & _ & i8 & A & H)|[(_ & L & H)|(R & _)]].
      * unfold app_field in A. rewrite Ht in A. cbn [N.eqb Pos.eqb] in A. injection A as <-.
        rewrite Ht in H. change (in_rank 36) with 8 in H. apply loop_post in H as [Fp ->]; auto; try lia.
        exists o2, o3, o4, o5, o6, rs6, (Some ap), post. unfold in_setP.
        cbn [i_name i_cbp i_mbf i_fh i_nonce i_life i_hop i_params i_wire]. rewrite !orb_false_r. splits; auto.
        constructor; auto; try discriminate.
        -- exists pre. splits; auto. unfold recI in Ers. now rewrite <- Ers, E2, E3, E4, E5, E6.
        -- intros x [= <-]. auto.
      * rewrite Ht in L. change (in_rank 36) with 8 in L. lia.
      * unfold recI in R. rewrite Ht in R. discriminate.
  - intros (o2 & o3 & o4 & o5 & o6 & hs & ap & post & [(pre & -> & Fp & NC) T2 T3 T4 T5 T6 F34 Tap Nap Cp] & E1 & E2 & E3 & E4 & E5 & E6 & E7 & E8 & E9).
    set (T := opt_list ap ++ post).
    assert (HT : tail_ok T) by (unfold T; destruct ap as [a|]; [exact (Tap a eq_refl)|rewrite (Nap eq_refl); exact I]).
    assert (R2 : all_rank 2 o2) by (eapply all_rank_type with (t := 33); [reflexivity|intros; now apply T2]).
    assert (R3 : all_rank 3 o3) by (eapply all_rank_type with (t := 18); [reflexivity|intros; now apply T3]).
    assert (R4 : all_rank 4 o4) by (eapply all_rank_type with (t := 30); [reflexivity|auto]).
    assert (R5 : all_rank 5 o5) by (eapply all_rank_type with (t := 10); [reflexivity|intros; now apply T5]).
    assert (R6 : all_rank 6 o6) by (eapply all_rank_type with (t := 12); [reflexivity|auto]).
    assert (N36 : forall o k, k <= 7 -> k <> 0 -> all_rank k o -> Forall (fun e => recI e = true /\ e_type e <> 36) (opt_list o)).
    { intros o k K Z R. apply Forall_opt. intros e E. specialize (R e E). unfold recI, in_recognised.
      pose proof (rank_cases (e_type e)). split; lia. }
    assert (Fh : Forall (fun e => recI e = true /\ e_type e <> 36) hs).
    { eapply Forall_impl; [|exact F34]. cbn. intros e E. unfold recI. rewrite E. split; [reflexivity|lia]. }
    assert (F6 : Forall (fun e => recI e = true /\ e_type e <> 36) (opt_list o6 ++ hs)) by (apply Forall_app; split; auto; apply (N36 o6 6); auto; lia).
    assert (F5 : Forall (fun e => recI e = true /\ e_type e <> 36) (opt_list o5 ++ opt_list o6 ++ hs)) by (apply Forall_app; split; auto; apply (N36 o5 5); auto; lia).
    assert (F4 : Forall (fun e => recI e = true /\ e_type e <> 36) (opt_list o4 ++ opt_list o5 ++ opt_list o6 ++ hs)) by (apply Forall_app; split; auto; apply (N36 o4 4); auto; lia).
    assert (F3 : Forall (fun e => recI e = true /\ e_type e <> 36) (opt_list o3 ++ opt_list o4 ++ opt_list o5 ++ opt_list o6 ++ hs)) by (apply Forall_app; split; auto; apply (N36 o3 3); auto; lia).
    assert (F2 : Forall (fun e => recI e = true /\ e_type e <> 36) (opt_list o2 ++ opt_list o3 ++ opt_list o4 ++ opt_list o5 ++ opt_list o6 ++ hs)) by (apply Forall_app; split; auto; apply (N36 o2 2); auto; lia).
    assert (Np : Forall (fun e => e_type e <> 36) pre).
    { apply Forall_forall. intros x Hx E36. assert (In x (filter (fun e => in_recognised (e_type e)) pre)) as Hf.
      { apply filter_In. split; auto. now rewrite E36. }
      rewrite Fp in Hf. rewrite Forall_forall in F2. apply F2 in Hf. tauto. }
    apply loop_filter; auto. split; auto. unfold recI. rewrite Fp.
    set (rest6 := hs) in *.
    destruct i' as [jn jc jm jf jo jl jh jp jw]. cbn [i_name i_cbp i_mbf i_fh i_nonce i_life i_hop i_params i_wire] in *. subst jn jc jm jo jp jw.
    apply loop_stage; auto; try lia. exists o2. do 2 eexists. split; [reflexivity|]. split; [exact R2|]. split.
    { intros _ Q. cbn in Q |- *. destruct o3 as [x|]; [cbn; rewrite (R3 x eq_refl); lia|]. destruct o4 as [x|]; [cbn; rewrite (R4 x eq_refl); lia|].
      destruct o5 as [x|]; [cbn; rewrite (R5 x eq_refl); lia|]. destruct o6 as [x|]; [cbn; rewrite (R6 x eq_refl); lia|].
      cbn in *. destruct hs as [|x hs']; [easy|]. apply Forall_cons_iff in F34 as [Ex _]. cbn. rewrite Ex. reflexivity. }
    split; [apply ap2; [exact R2|split; [exact T2|reflexivity]]|].
    apply loop_stage; auto; try lia. exists o3. do 2 eexists. split; [reflexivity|]. split; [exact R3|]. split.
    { intros _ Q. cbn in Q |- *. destruct o4 as [x|]; [cbn; rewrite (R4 x eq_refl); lia|].
      destruct o5 as [x|]; [cbn; rewrite (R5 x eq_refl); lia|]. destruct o6 as [x|]; [cbn; rewrite (R6 x eq_refl); lia|].
      cbn in *. destruct hs as [|x hs']; [easy|]. apply Forall_cons_iff in F34 as [Ex _]. cbn. rewrite Ex. reflexivity. }
    split; [apply ap3; [exact R3|split; [exact T3|reflexivity]]|].
    apply loop_stage; auto; try lia. exists o4. do 2 eexists. split; [reflexivity|]. split; [exact R4|]. split.
    { intros _ Q. cbn in Q |- *. 
      destruct o5 as [x|]; [cbn; rewrite (R5 x eq_refl); lia|]. destruct o6 as [x|]; [cbn; rewrite (R6 x eq_refl); lia|].
      cbn in *. destruct hs as [|x hs']; [easy|]. apply Forall_cons_iff in F34 as [Ex _]. cbn. rewrite Ex. reflexivity. }
    split; [apply ap4; [exact R4|split; [exact T4|]]; exists jf; split; [reflexivity|]; destruct o4; exact E4|].
    apply loop_stage; auto; try lia. exists o5. do 2 eexists. split; [reflexivity|]. split; [exact R5|]. split.
    { intros _ Q. cbn in Q |- *. destruct o6 as [x|]; [cbn; rewrite (R6 x eq_refl); lia|].
      cbn in *. destruct hs as [|x hs']; [easy|]. apply Forall_cons_iff in F34 as [Ex _]. cbn. rewrite Ex. reflexivity. }
    split; [apply ap5; [exact R5|split; [exact T5|reflexivity]]|].
    apply loop_stage; auto; try lia. exists o6. do 2 eexists. split; [reflexivity|]. split; [exact R6|]. split; [lia|].
    split; [apply ap6; [exact R6|split; [exact T6|]]; exists jl; split; [reflexivity|]; destruct o6; exact E6|].
    change (1 + 1 + 1 + 1 + 1 + 1) with 6. apply loop_hops; auto. split; auto. eexists.
    split; [apply ap7; [exact F34|]; exists jh; split; [reflexivity|exact E7]|].
    rewrite !orb_false_r.
    unfold T. destruct ap as [ap|]; cbn [opt_list app].
    + specialize (Tap ap eq_refl). apply loop_cons. left. unfold recI. rewrite Tap. change (in_rank 36) with 8. splits; auto; [lia|].
      eexists. split; [unfold app_field; rewrite Tap; cbn [N.eqb Pos.eqb]; reflexivity|].
      apply loop_post; [lia|reflexivity|]. split; auto.
    + rewrite (Nap eq_refl). reflexivity.
Qed.

Section WithSha.
Variable sha256 : bytes -> bytes.

Lemma nm_index_nat : forall n j, (j < length (n_comps n))%nat -> nm_index (Z.of_nat j) n = Some j.
Proof.
  intros n j L. unfold nm_index, nm_size, nlen. cbv zeta.
  destruct (Z.of_nat j <? 0)%Z eqn:E; [lia|].
  destruct ((Z.of_nat j <? 0) || (_ <=? Z.of_nat j))%Z eqn:E2; [lia|]. f_equal. lia.
Qed.

Lemma digestValid_spec : forall i, (length (digests (nkey (i_name i))) <= 1)%nat ->
  exists b, in_digestValid sha256 i = Ok b /\ (b = true <-> digest_ok sha256 (nkey (i_name i)) (i_params i)).
Proof.
  intros i L. unfold in_digestValid, digest_ok, in_hasParams. pose proof (digestIndex_spec (i_name i)) as D.
  destruct (digestIndex (i_name i)) as [| |j].
  - rewrite D. eexists. split; [reflexivity|]. destruct (i_params i); cbn; split; congruence.
  - lia.
  - destruct D as (a & c & b & E & -> & Dc & Da & Db & Dn). rewrite Dn.
    destruct (i_params i) as [|p ps] eqn:P; cbn [negb].
    + eexists. split; [reflexivity|]. split; discriminate.
    + unfold nm_get. rewrite nm_index_nat by (rewrite E, app_length; cbn; lia).
      rewrite E, nth_error_app2, Nat.sub_diag by lia. cbn [nth_error of_opt bind].
      eexists. split; [reflexivity|]. rewrite bytes_eqb_eq. unfold in_digest. rewrite P. unfold octets_of, ckey.
      unfold isd, isParametersSha256Digest, tParametersSha256DigestComponent in Dc. apply andb_true_iff in Dc as [Tc _]. apply N.eqb_eq in Tc. rewrite Tc.
      split; [intros ->; reflexivity|congruence].
Qed.

(* the exact domain and result of decoding *)
Lemma in_decode_iff : forall check e i i', in_decode sha256 check e i = (i', None) <->
  in_means e i' /\ (check = true -> digest_ok sha256 (nkey (i_name i')) (i_params i')).
Proof.
  intros check e i i'. unfold in_decode, in_means. split.
  - intro H. destruct (N.eqb_spec (e_type e) tInterest) as [T|]; cbn [negb] in H; [|discriminate].
    destruct (parseValue (e_val e)) as [[|n es]|] eqn:P; try discriminate.
    destruct (negb (e_type n =? tName)); [discriminate|].
    destruct (nm_decode n) as [nm|] eqn:Dn; [|discriminate].
    destruct (n_comps nm) as [|c0 cs] eqn:Cn; [discriminate|].
    assert (D1 : (length (digests (nkey nm)) <= 1)%nat /\
      match in_loop es 1 (mkInt nm false false [] None DEFAULT_LIFETIME None [] (Some e)) with
      | (i'0, Some x) => (i'0, Some x)
      | (i'0, None) => if check then match in_digestValid sha256 i'0 with
            | Ok true => (i'0, None) | Ok false => (i'0, Some ETlv) | Err x => (i'0, Some x) end else (i'0, None)
      end = (i', None)).
    { pose proof (digestIndex_spec nm) as D. destruct (digestIndex nm); [..|split; auto]; try discriminate.
      - rewrite D. cbn. auto.
      - destruct D as (? & ? & ? & _ & _ & _ & _ & _ & ->). cbn. lia. }
    destruct D1 as [D1 H1]. clear H.
    destruct (in_loop _ _ _) as [i1 [x|]] eqn:Lp; [discriminate|].
    assert (i1 = i') by (destruct check; [|congruence]; destruct (in_digestValid sha256 i1) as [[]|]; congruence). subst i1.
    apply loop_iff in Lp as (cbp & mbf & fh & nonce & life & hops & ap & post & Lay & E1 & E2 & E3 & E4 & E5 & E6 & E7 & E8 & E9).
    rewrite <- E1 in *. split.
    + exists n, es, cbp, mbf, fh, nonce, life, hops, ap, post. splits; auto. rewrite Cn. discriminate.
    + intros ->. destruct (digestValid_spec i' D1) as (b & Hb & Ib). rewrite Hb in H1. apply Ib. destruct b; congruence.
  - intros [(n & es & cbp & mbf & fh & nonce & life & hops & ap & post & T & P & Lay & Dn & Nc & D1 & E2 & E3 & E4 & E5 & E6 & E7 & E8 & E9) Dk].
    rewrite T, P. change (5 =? tInterest) with true. cbn [negb].
    assert (Tn : e_type n = 7) by (apply nm_decode_keys in Dn; apply Dn). rewrite Tn, Dn. change (7 =? tName) with true. cbn [negb].
    assert (Lp : in_loop es 1 (mkInt (i_name i') false false [] None DEFAULT_LIFETIME None [] (Some e)) = (i', None)).
    { apply loop_iff. exists cbp, mbf, fh, nonce, life, hops, ap, post. splits; auto. }
    destruct (n_comps (i_name i')) as [|c0 cs]; [congruence|].
    pose proof (digestIndex_spec (i_name i')) as D. rewrite Lp.
    destruct (digestValid_spec i' D1) as (b & Hb & Ib). rewrite Hb.
    assert (R : (if check then (if b then (i', None) else (i', Some ETlv)) else (i', None)) = (i', @None err)).
    { destruct check; auto. destruct b; auto. exfalso. destruct Ib as [_ Ib]. specialize (Ib (Dk eq_refl)). discriminate. }
    destruct (digestIndex (i_name i')); [exact R|lia|exact R].
Qed.
End WithSha.
