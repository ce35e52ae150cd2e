(* Proofs about NFD's datasets: histories, the wire format, the converse of decoding, equality, dataset payloads, control responses. *)
From Coq Require Import ZArith Lia ZifyBool ZifyNat ZifyN Permutation.
From Verif Require Import Base BaseLemmas M_Tlv S_Tlv P_Tlv P_Block M_Name S_Name P_Name P_Packet P_Data P_InterestD M_Control S_Control P_Control M_Signer M_NfdData S_NfdData P_NfdData.
Open Scope N_scope.

(* ---- histories ---- *)
Lemma same_val_refl : forall s a, same_val s a a.
Proof. intros s [[]|]; destruct s; cbn; auto. Qed.
Lemma same_vals_refl : forall rs vs, vals_inv rs vs -> same_vals (map row_field rs) vs vs.
Proof. induction 1; cbn; constructor; auto using same_val_refl. Qed.
Lemma same_entry_refl : forall c o, obj_inv c o -> same_entry c o o.
Proof.
  intros c o [A B]. unfold same_entry. rewrite <- layout_rows. split; [now apply same_vals_refl|]. pose proof (records_sub c) as RS. destruct (ty_sub (class c)) as [[t rs]|]; destruct (records c) as [l|]; try contradiction; auto.
  destruct RS as [_ <-]. induction B; constructor; auto using same_vals_refl.
Qed.
Lemma vals_put : forall rs vs i r v, vals_inv rs vs -> nth_error rs i = Some r -> val_inv r v -> vals_inv rs (put i v vs).
Proof.
  intros rs vs i r v I. revert i. induction I as [|x y rs vs X I IH]; intros i N V; [destruct i; discriminate|]. destruct i; cbn in N; [injection N as ->; constructor; auto|]. cbn. constructor; auto. now apply IH.
Qed.
Lemma record_inv : forall rs vs, Forall (fun r => w_kind r <> DText) rs -> record_ok (map row_field rs) vs -> vals_inv rs vs.
Proof.
  induction rs as [|r rs IH]; intros vs F R; cbn [map] in R; inversion R; subst; inversion F; subst; (constructor; [|apply IH; assumption] || constructor).
  - rewrite row_field_shape in *. split; [assumption|intros; contradiction].
  - change (required r = false). match goal with H : Optional _ _ = row_field r |- _ => unfold row_field in H; destruct (required r); [discriminate H|reflexivity] end.
Qed.
Lemma new_inv : forall c, do_inv c (do_new (class c)).
Proof.
  intro c. split; [|discriminate]. split; [|destruct c; cbn; constructor].
  destruct c; cbn; repeat constructor; cbn; try (intro; discriminate); try reflexivity; try lia; try (split; lia).
Qed.
Lemma nth_map : forall A B (f : A -> B) l i, nth_error (map f l) i = match nth_error l i with Some x => Some (f x) | None => None end.
Proof. intros A B f l. induction l; intros []; cbn; auto. Qed.
Lemma step_inv : forall c x o o', do_inv c o -> op_ok c x -> do_step (class c) x o = Some o' -> do_inv c o'.
Proof.
  intros c x o o' [[I IS] WI] O H. destruct x as [i v|i|vs| | |e]; cbn [do_step] in H.
  - destruct O as (f & NF & HO). rewrite <- layout_rows, nth_map in NF. destruct (nth_error (ty_rows (class c)) i) as [r|] eqn:N; [|discriminate]. injection NF as <-. injection H as <-. rewrite row_field_shape in HO.
    split; [|discriminate]. split; [|exact IS]. cbn. eapply vals_put; eauto. pose proof (class_text c) as TX. unfold text_opt in TX. rewrite Forall_forall in TX. specialize (TX _ (nth_error_In _ _ N)).
    assert (DL : w_kind r = DLimit -> required r = false). { clear - N. intro K. apply nth_error_In in N. destruct c; cbn in N; repeat (destruct N as [<-|N]; [try discriminate K; reflexivity|]); contradiction. }
    unfold dv_set. destruct (w_kind r) eqn:K; try (split; [now rewrite K|rewrite K; discriminate]).
    + destruct v as [| |s|]; cbn in HO; try contradiction. destruct s; [apply TX; reflexivity|]. split; [rewrite K; exact HO|discriminate].
    + destruct v as [| | |z]; cbn in HO; try contradiction. destruct (_ =? _)%Z; [now apply DL|]. split; [rewrite K; exact HO|rewrite K; discriminate].
  - destruct (nth_error (ty_rows (class c)) i) as [r|] eqn:N; [|discriminate]. destruct (required r) eqn:RQ; [discriminate|]. injection H as <-. split; [|discriminate]. split; [|exact IS]. cbn. eapply vals_put; eauto.
  - destruct O as (l & R & RO). pose proof (records_sub c) as RS. destruct (ty_sub (class c)) as [[t rs]|] eqn:SU; [|discriminate]. rewrite R in RS. destruct RS as [-> RL]. injection H as <-. split; [|discriminate]. split; [exact I|].
    rewrite SU. cbn. apply Forall_app. split; auto. constructor; auto. apply record_inv; [|now rewrite RL]. clear - SU. destruct c; cbn in SU; try discriminate; injection SU as <-; repeat constructor; discriminate.
  - destruct (ty_sub (class c)) as [[t rs]|] eqn:SU; [|discriminate]. injection H as <-. split; [|discriminate]. split; [exact I|]. rewrite SU. constructor.
  - destruct (ty_encode (class c) o) as [[e o1]|] eqn:E; injection H as <-; [|split; [split|]; auto]. unfold ty_encode in E. destruct (do_wire o) as [w|] eqn:W.
    + injection E as <- <-. split; [split; auto|]. rewrite W. exact WI.
    + pose proof E as E'. rewrite number_type' in E. unfold alloc in E. destruct (N.ltb_spec MAX_BUFFER (nlen (tlv_enc (number c) (ty_value (class c) o)))) as [|L]; [discriminate|].
      destruct (fresh_encode c o (conj I IS) W L) as (q & E1 & E2 & E3 & E4). unfold ty_encode in E1. rewrite W in E1. rewrite E1 in E'. injection E' as <- <-.
      split; [split; auto|]. cbn. intros e [= <-]. split; auto. exists q. split; auto.
  - destruct (ty_decode (class c) e) as [q|] eqn:D; [|discriminate]. injection H as <-. destruct O as [w BW]. destruct (ty_heard _ _ _ D) as (_ & _ & OI & DW). split; auto. rewrite DW. intros y [= <-].
    split; [eapply blockFromWire_inv; eauto|]. exists q. split; auto. now apply same_entry_refl.
Qed.
Lemma run_inv : forall c l o o', do_inv c o -> Forall (op_ok c) l -> do_run (class c) l o = Some o' -> do_inv c o'.
Proof.
  intros c. induction l as [|x l IH]; intros o o' I F H; cbn in H; [injection H as <-; auto|]. inversion F; subst. destruct (do_step (class c) x o) as [o1|] eqn:E; [|discriminate]. apply (IH o1); auto. eapply step_inv; eauto.
Qed.
Lemma made_inv : forall c o, made c o -> do_inv c o.
Proof. intros c o (l & F & R). eapply run_inv; eauto using new_inv. Qed.
Lemma made_encodes : forall c o, made c o ->
  (ty_encode (class c) o = Err ELength /\ MAX_BUFFER < nlen (tlv_enc (number c) (ty_value (class c) o))) \/
  exists e o' q, ty_encode (class c) o = Ok (e, o') /\ do_vals o' = do_vals o /\ do_subs o' = do_subs o /\ elem_wf e /\ ty_decode (class c) e = Ok q /\ same_entry c q o.
Proof.
  intros c o M. destruct (made_inv _ _ M) as [OI WI]. destruct (do_wire o) as [e|] eqn:W.
  - right. destruct (WI e eq_refl) as (E1 & q & E2 & E3). exists e, o, q. splits; auto. unfold ty_encode. now rewrite W.
  - destruct (N.ltb_spec MAX_BUFFER (nlen (tlv_enc (number c) (ty_value (class c) o)))) as [L|L].
    + left. split; auto. unfold ty_encode, alloc. rewrite W, number_type'. destruct (N.ltb_spec MAX_BUFFER (nlen (tlv_enc (number c) (ty_value (class c) o)))); [reflexivity|lia].
    + right. destruct (fresh_encode c o OI W L) as (q & E1 & E2 & E3 & E4). do 3 eexists. split; [exact E1|]. splits; auto; [exact E3|exact E4].
Qed.

(* ---- the wire format ---- *)
Lemma dv_says : forall t k v, kind_wf t k -> holds (kshape k) v -> nlen (dv_octets t k v) < two64 -> exists d, says (kshape k) v d /\ is_tlv t d (dv_octets t k v).
Proof.
  intros t k v (T0 & T1 & KW) H L.
  assert (NUM : forall n, n < 2 ^ 64 -> is_nni n (encNNI n) /\ is_tlv t (encNNI n) (tlv_nni t n)).
  { intros n X. split; [apply (encNNI_shortest n X)|]. destruct (nni_wf t n T0 T1) as [W WI]. rewrite <- WI. apply is_tlv_elem. eexists. split; [exact W|]. auto. }
  destruct k, v; cbn [kshape holds] in H; try contradiction; cbn [dv_octets kshape says] in *.
  - destruct (NUM n H). eauto.
  - exists s. split; auto. rewrite tlv_enc_len in L. apply tlv_enc_is; auto. lia.
  - exists s. split; auto. rewrite tlv_enc_len in L. apply tlv_enc_is; auto. lia.
  - destruct (NUM n) as [A B]; [lia|]. eauto.
  - destruct (NUM (time_u64 z)) as [A B]; [apply time_u64_lt|]. eexists. split; [|exact B]. eexists. split; [exact A|apply time_mod].
  - destruct (NUM (time_u64 z)) as [A B]; [apply time_u64_lt|]. eexists. split; [|exact B]. eexists. split; [exact A|apply time_mod].
  - destruct (NUM (unix_ms z)) as [A B]; [apply time_u64_lt|]. destruct (quot_bounds z) as [Q1 Q2]. eexists. split; [|exact B]. exists (unix_ms z), (Z.quot z 1000000). splits; auto; try lia. apply time_mod.
  - destruct (NUM n) as [A B]; [lia|]. eauto.
  - subst t. destruct (nm_octets_is n H L) as (x & X1 & X2). eauto.
  - rewrite tlv_enc_len in L. destruct (nm_octets_is n H) as (x & X1 & X2); [lia|]. exists (nm_octets n). split; [eauto|]. apply tlv_enc_is; auto. lia.
Qed.
Lemma rows_written : forall rs, rows_wf rs -> forall vs, vals_inv rs vs -> nlen (rows_octets rs vs) < two64 -> written (map row_field rs) vs (rows_octets rs vs).
Proof.
  induction rs as [|r rs IH]; intros [WF ND] vs I L; inversion I as [|? v ? vs0 V I']; subst; [constructor|]. inversion WF; subst. cbn in ND. inversion ND; subst.
  cbn [rows_octets] in *. rewrite nlen_app in L. assert (R : written (map row_field rs) vs0 (rows_octets rs vs0)) by (apply IH; [split| |]; auto; lia).
  cbn [map]. unfold row_field at 1. destruct v as [v|]; cbn [val_inv] in V.
  - destruct V as [V _]. destruct (dv_says (w_type r) (w_kind r) v) as (d & D1 & D2); auto; [lia|]. destruct (required r); econstructor; eauto.
  - rewrite V. constructor. exact R.
Qed.
Lemma ty_written : forall c o, obj_inv c o -> nlen (ty_value (class c) o) < two64 -> entry_written c o (ty_value (class c) o).
Proof.
  intros c o [I IS] L. unfold ty_value in *. rewrite nlen_app in L. unfold entry_written. eexists _, _. split; [reflexivity|]. rewrite <- layout_rows. split; [apply rows_written; auto using class_wf; lia|].
  pose proof (records_sub c) as RS. destruct (ty_sub (class c)) as [[t rs]|] eqn:SU; destruct (records c) as [l|]; try contradiction; auto. destruct RS as [-> <-].
  assert (L' : nlen (concat (map (fun v => tlv_enc 129 (rows_octets rs v)) (do_subs o))) < two64) by lia. clear L. induction IS as [|v subs V IS IH]; cbn [map concat] in *; [constructor|].
  rewrite nlen_app, tlv_enc_len in L'. econstructor; [apply rows_written; eauto using sub_wf; lia|apply tlv_enc_is; [reflexivity|reflexivity|lia]|apply IH; lia].
Qed.

(* ---- whatever the protocol allows is decoded ---- *)
Lemma dv_accepts : forall k e v, hears (kshape k) v (e_val e) -> (k = DName -> e_type e = 7) -> exists v', dv_decode k e = Ok v' /\ val_eq v' v.
Proof.
  assert (ZM : forall a z, a < 2 ^ 64 -> int64 z -> ((Z.of_N a - z) mod 2 ^ 64 = 0)%Z -> u64_time a = z).
  { intros a z A B C. pose proof (u64_range a A) as R. pose proof (u64_mod a) as M. unfold int64 in B. apply Z.mod_divide in C; [|discriminate]. apply Z.mod_divide in M; [|discriminate]. destruct C as [x C], M as [y M]. lia. }
  intros k e v H T. destruct k; cbn [kshape] in H; cbn [dv_decode].
  - destruct v as [[]|]; cbn in H; try contradiction. destruct H as [H _]. apply readNNIBlock_iff in H. rewrite H. cbn. eexists. split; [reflexivity|]. reflexivity.
  - destruct v as [[]|]; cbn in H; try contradiction. eexists. split; [reflexivity|]. cbn. now rewrite H.
  - destruct v as [[]|]; cbn in H; try contradiction.
    + destruct H as [H NE]. rewrite H. eexists. split; [reflexivity|]. destruct s; [contradiction|]. reflexivity.
    + rewrite H. eexists. split; [reflexivity|]. exact Logic.I.
  - destruct v as [[]|]; cbn in H; try contradiction. destruct H as [H L]. apply readNNIBlock_iff in H. unfold readNNIBlockAs. rewrite H. cbn [bind]. destruct (N.leb_spec limit n); [lia|]. eexists. split; [reflexivity|]. reflexivity.
  - destruct v as [[]|]; cbn in H; try contradiction. destruct H as (R & n & H & M). apply readNNIBlock_iff in H. rewrite H. cbn [bind]. eexists. split; [reflexivity|]. cbn. f_equal. f_equal. apply ZM; auto. eapply readNNI_lt; eauto.
  - destruct v as [[]|]; cbn in H; try contradiction. destruct H as (R & n & H & M). apply readNNIBlock_iff in H. rewrite H. cbn [bind]. eexists. split; [reflexivity|]. cbn. f_equal. f_equal. apply ZM; auto. eapply readNNI_lt; eauto.
  - destruct v as [[]|]; cbn in H; try contradiction. destruct H as (R & n & ms & H & RM & M & ->). apply readNNIBlock_iff in H. rewrite H. cbn [bind]. rewrite (ZM n ms); auto; [|eapply readNNI_lt; eauto]. rewrite i64_ok by exact R. eexists. split; [reflexivity|]. reflexivity.
  - destruct v as [[]|]; cbn in H; try contradiction. destruct H as (m & H & ->). apply readNNIBlock_iff in H. rewrite H. cbn. eexists. split; [reflexivity|]. reflexivity.
  - destruct v as [[]|]; cbn in H; try contradiction. destruct (nm_decode_accepts e (nkey n) (T eq_refl) H) as (n' & D & K). rewrite D. cbn. eexists. split; [reflexivity|]. exact K.
  - destruct v as [[]|]; cbn in H; try contradiction. destruct H as (x & d1 & l & rest & E & X1 & X2 & X3). apply is_tlv_elem in X2 as (y & Wy & Ty & Vy & Wi). apply is_tlv_seq_elems in X3 as (es & We & _ & ->).
    assert (P : parseValue (e_val e) = Ok (y :: es)) by (apply parseValue_ok_iff; split; [constructor; auto|cbn; now rewrite E, Wi]). rewrite P. cbn [bind].
    destruct (nm_decode_accepts y (nkey n) Ty) as (n' & D & K); [now rewrite Vy|]. rewrite D. cbn. eexists. split; [reflexivity|]. exact K.
Qed.
Lemma rows_accept : forall rs, rows_wf rs -> forall es vs rest, heard (map row_field rs) (pairs es) vs rest -> exists vs' r, rows_decode rs es = Ok (vs', r) /\ pairs r = rest /\ Forall2 val_eq vs' vs.
Proof.
  induction rs as [|r rs IH]; intros [WF ND] es vs rest H; cbn [map] in H; [inversion H; subst; exists [], es; cbn; auto|].
  inversion WF as [|? ? K WF']; subst. cbn in ND. inversion ND; subst. cbn [rows_decode]. unfold row_field at 1 in H.
  assert (TAKE : forall d es0 v vs0, pairs es = (w_type r, d) :: es0 -> hears (kshape (w_kind r)) v d -> heard (map row_field rs) es0 vs0 rest ->
    exists vs' r0, match es with [] => if required r then Err ETlv else let! x := rows_decode rs [] in Ok (None :: fst x, snd x)
      | e :: es' => if e_type e =? w_type r then let! v := dv_decode (w_kind r) e in let! x := rows_decode rs es' in Ok (v :: fst x, snd x)
                    else if required r then Err ETlv else let! x := rows_decode rs es in Ok (None :: fst x, snd x) end = Ok (vs', r0) /\ pairs r0 = rest /\ Forall2 val_eq vs' (v :: vs0)).
  { intros d es0 v vs0 E HE HR. destruct es as [|e es]; [discriminate|]. cbn in E. injection E as E1 E2 E3. rewrite E1, N.eqb_refl. subst d es0.
    destruct (dv_accepts (w_kind r) e v HE) as (v' & D & VE). { intro X. destruct K as (_ & _ & K). rewrite X in K. congruence. }
    destruct (IH (conj WF' H3) _ _ _ HR) as (vs' & r0 & D2 & P2 & F2). rewrite D. cbn [bind]. rewrite D2. cbn. eexists _, _. split; [reflexivity|]. auto. }
  destruct (required r) eqn:RQ; inversion H; subst.
  - eapply TAKE; eauto.
  - eapply TAKE; eauto.
  - match goal with X : heard _ (pairs es) _ _ |- _ => destruct (IH (conj WF' H3) _ _ _ X) as (vs' & r0 & D2 & P2 & F2) end.
    exists (None :: vs'), r0. destruct es as [|e es]; [rewrite D2; cbn; splits; auto; constructor; auto; exact Logic.I|].
    destruct (N.eqb_spec (e_type e) (w_type r)) as [X|X]; [exfalso; match goal with N : forall d es', _ <> _ |- _ => eapply N; cbn; rewrite X; reflexivity end|].
    rewrite D2. cbn. splits; auto. constructor; auto. exact Logic.I.
Qed.
Lemma subs_accept : forall rs, rows_wf rs -> forall es subs, Forall2 (record_heard (map row_field rs)) subs (pairs es) -> exists l, subs_decode 129 rs es = Ok l /\ Forall2 (Forall2 val_eq) l subs.
Proof.
  intros rs WF es. induction es as [|e es IH]; intros subs F; cbn in F; inversion F as [|vs ? subs0 ? H1 H2]; subst; [exists []; cbn; auto|]. destruct (IH _ H2) as (l & D & FL).
  destruct H1 as [T (xs & rest & SQ & HE)]. cbn in T, SQ. apply is_tlv_seq_elems in SQ as (ys & W & -> & E). destruct (rows_accept rs WF ys vs rest HE) as (vs' & r0 & D2 & P2 & F2).
  cbn [subs_decode]. rewrite T. change (negb (129 =? 129)) with false. cbv iota. assert (P : parseValue (e_val e) = Ok ys) by (apply parseValue_ok_iff; auto). rewrite P. cbn [bind]. rewrite D2. cbn [bind]. rewrite D. cbn. eexists. split; [reflexivity|]. auto.
Qed.
Lemma ty_accepts : forall c e vs subs, e_type e = number c -> entry_heard c vs subs (e_val e) -> exists o, ty_decode (class c) e = Ok o /\ Forall2 val_eq (do_vals o) vs /\ Forall2 (Forall2 val_eq) (do_subs o) subs.
Proof.
  intros c e vs subs T (es & rest & SQ & HE & SU). apply is_tlv_seq_elems in SQ as (ys & W & -> & E). rewrite <- layout_rows in HE. destruct (rows_accept _ (class_wf c) ys vs rest HE) as (vs' & r0 & D & P & F).
  unfold ty_decode. rewrite number_type', T, N.eqb_refl. cbn [negb]. assert (PV : parseValue (e_val e) = Ok ys) by (apply parseValue_ok_iff; auto). rewrite PV. cbn [bind]. rewrite D. cbn [bind fst snd].
  pose proof (records_sub c) as RS. destruct (ty_sub (class c)) as [[t rs]|] eqn:ST; destruct (records c) as [l|]; try contradiction.
  - destruct RS as [-> <-]. rewrite <- P in SU. destruct (subs_accept rs (sub_wf _ _ _ ST) r0 subs SU) as (l & D2 & F2). rewrite D2. cbn [bind]. eexists. split; [reflexivity|]. auto.
  - subst subs. eexists. split; [reflexivity|]. cbn. auto.
Qed.
