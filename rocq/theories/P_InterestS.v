(* Signed ranges, signing and matching of Interests. *)
From Coq Require Import Lia ZifyBool ZifyNat ZifyN.
From Verif Require Import Base BaseLemmas M_Tlv P_Tlv S_Tlv P_Block M_Str M_Name S_Name P_Name P_NameUri M_Packet S_Packet P_Packet P_Data P_DataT P_DataHist.
From Verif Require Import M_Interest S_Interest P_Interest P_InterestD P_InterestT P_InterestH.

Lemma means_unique : forall e i j, in_means e i -> in_means e j -> i = j.
Proof.
  intros e i j M M'. apply means_loop in M as (n & es & _ & P & Dn & _ & _ & Lp). apply means_loop in M' as (n' & es' & _ & P' & Dn' & _ & _ & Lp').
  rewrite P in P'. injection P' as <- <-. rewrite Dn in Dn'. injection Dn' as Dn'. rewrite Dn' in Lp. congruence.
Qed.

Lemma drop_ignored_spec : forall l, exists skip, l = drop_ignored_tail l ++ skip /\
  Forall (fun x => ignored (e_type x) = true) skip /\
  (drop_ignored_tail l = [] \/ forall d, ignored (e_type (last (drop_ignored_tail l) d)) = false).
Proof.
  induction l as [|x l (skip & E & F & L)]; [exists []; auto|]. cbn [drop_ignored_tail].
  destruct (drop_ignored_tail l) as [|y m] eqn:D.
  - unfold stored_param. destruct (negb _) eqn:S1.
    + exists l. splits; auto; [cbn in E; now rewrite <- E in F|]. right. intro d. cbn. unfold ignored. unfold tHopLimit, tApplicationParameters in S1. lia.
    + exists (x :: l). splits; auto. constructor; [unfold ignored, tHopLimit, tApplicationParameters in *; lia|]. cbn in E. now rewrite <- E in F.
  - exists skip. splits; auto; [cbn; f_equal; exact E|]. right. intro d. destruct L as [L|L]; [discriminate|]. exact (L d).
Qed.
Lemma drop_stored : forall l, Forall (fun x => ignored (e_type x) = false) l -> drop_ignored_tail l = l.
Proof.
  induction l as [|x l IH]; intro F; auto. apply Forall_cons_iff in F as [Fx F]. cbn. rewrite IH by auto. destruct l; auto.
  unfold stored_param. unfold ignored in Fx. unfold tHopLimit, tApplicationParameters. now rewrite Fx.
Qed.

Lemma before_spec : forall t l, exists r, l = before t l ++ r /\ ~ In t (map e_type (before t l)) /\ hd t (map e_type r) = t.
Proof.
  intros t l. unfold before. destruct (split_type t l) as [a b] eqn:E. apply split_params in E as (E & N & H). exists b. cbn [fst].
  splits; auto. destruct b; auto.
Qed.
Lemma before_eq : forall t a b, ~ In t (map e_type a) -> hd t (map e_type b) = t -> before t (a ++ b) = a /\ split_type t (a ++ b) = (a, b).
Proof.
  assert (H : forall t a b, ~ In t (map e_type a) -> hd t (map e_type b) = t -> split_type t (a ++ b) = (a, b)).
  { induction a as [|x a IH]; intros b N H; cbn [app split_type].
    - destruct b as [|y b]; auto. cbn in *. rewrite H, N.eqb_refl. reflexivity.
    - cbn in N. destruct (N.eqb_spec (e_type x) t); [tauto|]. rewrite IH by tauto. reflexivity. }
  intros t a b N Hd. unfold before. rewrite H by auto. auto.
Qed.
Lemma rev_last : forall A (l : list A) c cs, rev l = c :: cs -> l = rev cs ++ [c].
Proof. intros A l c cs H. rewrite <- (rev_involutive l), H. reflexivity. Qed.
Lemma find_iff : forall t l, (exists x, List.find (fun e => e_type e =? t) l = Some x) <-> In t (map e_type l).
Proof.
  intros t l. split.
  - intros (x & H). apply List.find_some in H as [I E]. apply in_map_iff. exists x. split; auto. lia.
  - intro I. apply in_map_iff in I as (x & E & I). destruct (List.find _ l) as [y|] eqn:F; [eauto|].
    apply (List.find_none _ _ F) in I. lia.
Qed.
Lemma pre_no36 : forall es cbp mbf fh nonce life hops ap post, in_layout es cbp mbf fh nonce life hops ap post ->
  exists pre, es = pre ++ opt_list ap ++ post /\ ~ In 36 (map e_type pre).
Proof.
  intros es cbp mbf fh nonce life hops ap post [(pre & E & F & _) T1 T2 T3 T4 T5 T6 _ _ _]. exists pre. split; auto.
  intro I. apply in_map_iff in I as (x & Ex & I).
  assert (In' : In x (filter (fun e => in_recognised (e_type e)) pre)) by (apply filter_In; rewrite Ex; auto).
  rewrite F, !in_app_iff in In'.
  assert (O : forall o, In x (opt_list o) -> o = Some x) by (intros [y|]; cbn; [intros [-> |[]]; auto|tauto]).
  destruct In' as [H|[H|[H|[H|[H|H]]]]]; try apply O in H.
  - apply T1 in H. lia.
  - apply T2 in H. lia.
  - apply T3 in H. lia.
  - apply T4 in H. lia.
  - apply T5 in H. lia.
  - rewrite Forall_forall in T6. apply T6 in H. lia.
Qed.

Lemma filter_none : forall l, Forall (fun x => ignored (e_type x) = true) l -> filter (fun x => negb ((e_type x =? 34) || (e_type x =? 36))) l = [].
Proof. induction 1 as [|x l H F IH]; auto. cbn. unfold ignored in H. rewrite H. exact IH. Qed.

Section WithSha.
Variable sha256 : bytes -> bytes.
Hypothesis sha_len : forall b, nlen (sha256 b) = 32.
Notation dok := (digest_ok sha256).
Notation in_inv := (in_inv sha256).

Lemma ranges_iff : forall r i i' e, in_inv i -> nlen r = 4 -> in_encode sha256 true r i = (i', Ok e) ->
  (exists a b, in_signedRanges sha256 true r i = (i', Ok (a, b))) <->
  (exists cs v, nkey (i_name i) = cs ++ [(2, v)]) /\ In 44 (map e_type (i_params i)).
Proof.
  intros r i i' e I Lr E. unfold in_signedRanges. rewrite E.
  pose proof (encode_inv _ sha_len r i i' e I Lr E) as (I' & Ew & We & Hf & M & D & _).
  assert (Fn : nkey (i_name i') = nkey (i_name i) /\ i_params i' = i_params i).
  { destruct Hf as [Hf|[_ Hf]]; unfold in_fields, set_nonce in Hf; cbn in Hf; split; congruence. }
  destruct Fn as [<- <-]. unfold first_param.
  assert (Nc : n_comps (i_name i') <> []) by (destruct M as (n & es & cbp & mbf & fh & nonce & life & hops & ap & post & Q); apply Q).
  destruct (rev (n_comps (i_name i'))) as [|c cs] eqn:R.
  { apply (f_equal (@rev _)) in R. rewrite rev_involutive in R. now elim Nc. }
  apply rev_last in R.
  assert (K : nkey (i_name i') = map ckey (rev cs) ++ [ckey c]) by (unfold nkey; rewrite R, map_app; reflexivity).
  rewrite <- (find_iff 44 (i_params i')).
  unfold tParametersSha256DigestComponent, tInterestSignatureInfo in *. destruct (N.eqb_spec (c_type c) 2) as [T|T]; cbn [negb].
  - destruct (List.find _ (i_params i')) as [x|] eqn:Fi.
    + assert (Hp : exists ap post, snd (split_type tApplicationParameters (elems_of e)) = ap :: post).
      { destruct M as (n & es & cbp & mbf & fh & nonce & life & hops & ap & post & T5 & P & Ly & Dn & _ & _ & _ & _ & _ & _ & _ & _ & Ep & _).
        rewrite (elems_of_ok _ _ P). destruct (pre_no36 _ _ _ _ _ _ _ _ _ Ly) as (pre & -> & N36).
        destruct Ly as [_ _ _ _ _ _ _ Tap Nap _]. destruct ap as [ap|]; [|rewrite (Nap eq_refl) in Ep; rewrite Ep in Fi; discriminate].
        specialize (Tap ap eq_refl). apply nm_decode_keys in Dn as (Tn & _).
        change (n :: pre ++ opt_list (Some ap) ++ post) with ((n :: pre) ++ ap :: post).
        unfold tApplicationParameters. destruct (before_eq 36 (n :: pre) (ap :: post)) as [_ ->]; auto; [cbn; intros [|]; [lia|tauto]|]. cbn. eauto. }
      destruct Hp as (ap & post & ->). split; [intros _|intros _; eauto].
      split; [|eauto]. exists (map ckey (rev cs)), (c_val c). rewrite K. unfold ckey at 2. now rewrite T.
    + split; [intros (a & b & H); discriminate|]. intros [_ (x & Hx)]. discriminate.
  - split; [intros (a & b & H); discriminate|]. intros [(l & v & H) _]. rewrite K in H. apply app_inj_tail in H as [_ H].
    unfold ckey in H. injection H as H _. congruence.
Qed.

Lemma seq_octets : forall l, Forall elem_ok l -> is_tlv_seq (map (fun e => (e_type e, e_val e)) l) (octets_of l).
Proof.
  intros l F. apply is_tlv_seq_elems. exists l. splits; auto. eapply Forall_impl; [|exact F]. intros e H. now apply elem_wf_iff.
Qed.
Lemma octets_app : forall a b, octets_of (a ++ b) = octets_of a ++ octets_of b.
Proof. intros. unfold octets_of. now rewrite map_app, concat_app. Qed.

Lemma ranges_covers : forall r i i' a b, in_inv i -> nlen r = 4 -> in_signedRanges sha256 true r i = (i', Ok (a, b)) ->
  exists e cs d signed, in_encode sha256 true r i = (i', Ok e) /\ in_covers e a b cs d signed /\
    nkey (i_name i) = map (fun e => (e_type e, e_val e)) (cs ++ [d]) /\
    filter (fun x => negb (ignored (e_type x))) (tl signed) = tl (before 46 (i_params i)) /\
    hd_error signed = hd_error (i_params i) /\
    (i_wire i = None -> signed = before 46 (i_params i) /\ a = concat (map comp_octets (removelast (n_comps (i_name i))))) /\
    (forall i0, in_decode sha256 true e i0 = (i', None)) /\
    (forall r', in_signedRanges sha256 true r' i' = (i', Ok (a, b))).
Proof.
  intros r i i' a b I Lr H. pose proof H as H0. unfold in_signedRanges in H.
  destruct (in_encode sha256 true r i) as [i2 [e|x]] eqn:E; [|discriminate].
  pose proof (encode_inv _ sha_len r i i2 e I Lr E) as (I' & Ew & We & Hf & M & D & Hb).
  destruct (rev (n_comps (i_name i2))) as [|c cs] eqn:R; [discriminate|].
  destruct (negb _) eqn:T2; [discriminate|].
  destruct (first_param _ i2) as [x|] eqn:Fi; [|discriminate].
  destruct (snd _) as [|ap' post'] eqn:Sp; [discriminate|].
  assert (i2 = i') by congruence. subst i2.
  assert (Ea : a = concat (map blk_octets (rev cs))) by congruence.
  assert (Eb : b = concat (map e_wire (ap' :: drop_ignored_tail (fst (split_type tInterestSignatureValue post'))))) by congruence.
  clear H. apply rev_last in R.
  assert (Fn : nkey (i_name i') = nkey (i_name i) /\ i_params i' = i_params i).
  { destruct Hf as [Hf|[_ Hf]]; unfold in_fields, set_nonce in Hf; cbn in Hf; split; congruence. }
  destruct Fn as [Fn Fp].
  pose proof M as (n & es & cbp & mbf & fh & nonce & life & hops & ap & post & T5 & P & Ly & Dn & _ & _ & _ & _ & _ & _ & _ & _ & Ep & _).
  rewrite (elems_of_ok _ _ P) in Sp. destruct (pre_no36 _ _ _ _ _ _ _ _ _ Ly) as (pre & Ees & N36).
  destruct Ly as [_ _ _ _ _ _ _ Tap Nap Cp]. destruct ap as [ap|]; [|rewrite (Nap eq_refl) in Ep; unfold first_param in Fi; rewrite Ep in Fi; discriminate].
  specialize (Tap ap eq_refl). pose proof Dn as Dn'. apply nm_decode_keys in Dn' as (Tn & _).
  assert (Sp' : ap' = ap /\ post' = post).
  { rewrite Ees in Sp. change (n :: pre ++ opt_list (Some ap) ++ post) with ((n :: pre) ++ ap :: post) in Sp.
    unfold tApplicationParameters in Sp. destruct (before_eq 36 (n :: pre) (ap :: post)) as [_ S1]; auto; [cbn; intros [|]; [lia|tauto]|].
    rewrite S1 in Sp. cbn in Sp. split; congruence. }
  destruct Sp' as [-> ->]. clear Sp. unfold tInterestSignatureValue in Eb. fold (before 46 post) in Eb.
  destruct (before_spec 46 post) as (rest & Epost & N46 & Hr).
  destruct (drop_ignored_spec (before 46 post)) as (skip & Ebf & Fs & Lst).
  set (mid := drop_ignored_tail (before 46 post)) in *.
  apply nm_decode_iff in Dn as (_ & ces & Pn & En).
  assert (Ec : exists cse d, ces = cse ++ [d] /\ rev cs = map comp_of_elem cse /\ c = comp_of_elem d).
  { rewrite En in R. cbn [n_comps] in R. destruct (rev ces) as [|d l] eqn:Rc.
    - apply (f_equal (@rev _)) in Rc. rewrite rev_involutive in Rc. subst ces. cbn in R. destruct (rev cs); discriminate.
    - apply rev_last in Rc. exists (rev l), d. split; auto. rewrite Rc, map_app in R. cbn in R. apply app_inj_tail in R as [-> ->]. auto. }
  destruct Ec as (cse & d & Eces & Ecs & Ed).
  assert (Wp : Forall elem_ok (n :: es)) by (apply parseValue_ok_iff in P as [W _]; eapply Forall_impl; [|exact W]; intros y Hy; now apply elem_wf_iff).
  assert (Wc : Forall elem_ok (cse ++ [d])) by (rewrite <- Eces; apply parseValue_ok_iff in Pn as [W _]; eapply Forall_impl; [|exact W]; intros y Hy; now apply elem_wf_iff).
  assert (Ees' : es = pre ++ ap :: mid ++ skip ++ rest).
  { rewrite Ees. cbn [opt_list app]. rewrite Epost at 1. rewrite Ebf at 1. now rewrite <- app_assoc. }
  assert (Ea' : a = octets_of cse).
  { rewrite Ea, Ecs, map_map. reflexivity. }
  exists e, cse, d, (ap :: mid). splits; auto.
  - exists n, pre, ap, mid, skip, rest. rewrite <- Ees'. splits; auto.
    + apply parseValue_ok_iff in P as [_ P]. exact P.
    + apply parseValue_ok_iff in Pn as [_ Pn]. now rewrite <- Eces.
    + unfold tParametersSha256DigestComponent in T2. rewrite Ed in T2. cbn in T2. lia.
    + now rewrite Ebf in N46.
    + destruct Lst as [|Lst]; auto.
  - rewrite <- Fn, En. unfold nkey. cbn [n_comps]. rewrite Eces, map_map. reflexivity.
  - rewrite <- Fp, Ep. cbn [tl]. clear - Epost Ebf Fs N46 Hr Tap. clearbody mid.
    assert (G : before 46 (opt_list (Some ap) ++ filter (fun x => negb ((e_type x =? 34) || (e_type x =? 36))) post) =
      ap :: filter (fun x => negb ((e_type x =? 34) || (e_type x =? 36))) (before 46 post)).
    { rewrite Epost at 1. rewrite filter_app. change (opt_list (Some ap) ++ ?x ++ ?y) with ((ap :: x) ++ y). apply before_eq.
      - cbn. intros [Z|Z]; [lia|]. apply N46. apply in_map_iff in Z as (y & Ey & Iy). apply filter_In in Iy as [Iy _]. apply in_map_iff. eauto.
      - destruct rest as [|y rest]; auto. cbn in Hr. cbn [filter]. rewrite Hr. cbn. exact Hr. }
    rewrite G. cbn [tl]. rewrite Ebf, filter_app. unfold ignored in *.
    rewrite (filter_none skip) by exact Fs. now rewrite app_nil_r.
  - now rewrite <- Fp, Ep.
  - intro Wn. destruct (Hb Wn) as (n1 & pre1 & P1 & Hn1 & F1). clear Hb.
    rewrite P in P1. assert (n1 = n) by congruence. subst n1.
    assert (Es1 : es = pre1 ++ i_params i) by congruence. apply Forall_cons_iff in F1 as [_ F1].
    rewrite <- Fp, Ep in Es1. cbn [opt_list app] in Es1.
    assert (Hs : (pre, ap :: post) = (pre1, ap :: filter (fun x => negb ((e_type x =? 34) || (e_type x =? 36))) post)).
    { destruct (before_eq 36 pre (ap :: post) N36) as [_ S1]; auto. rewrite <- S1.
      destruct (before_eq 36 pre1 (ap :: filter (fun x => negb ((e_type x =? 34) || (e_type x =? 36))) post)) as [_ S2]; auto.
      - intro Z. apply in_map_iff in Z as (y & Ey & Iy). rewrite Forall_forall in F1. now apply F1 in Iy.
      - rewrite <- S2. f_equal. rewrite <- Es1. exact (eq_sym Ees). }
    assert (Hpost : post = filter (fun x => negb ((e_type x =? 34) || (e_type x =? 36))) post) by congruence.
    assert (Fpost : Forall (fun x => ignored (e_type x) = false) post).
    { rewrite Hpost. apply Forall_forall. intros y Hy. apply filter_In in Hy as [_ Hy]. unfold ignored. lia. }
    split.
    + rewrite <- Fp, Ep, <- Hpost. cbn [opt_list app]. unfold before at 1. cbn [split_type].
      destruct (N.eqb_spec (e_type ap) 46); [lia|]. unfold mid. rewrite drop_stored.
      * unfold before. destruct (split_type 46 post). reflexivity.
      * rewrite Epost in Fpost. now apply Forall_app in Fpost.
    + rewrite Ea'. 
      assert (Hw : e_val n = concat (map comp_octets (n_comps (i_name i)))).
      { pose proof I as ((O1 & _) & _).
        assert (Wn' : elem_wf n) by (apply Forall_cons_iff in Wp as [W _]; now apply elem_wf_iff).
        assert (Ln : nlen (nm_octets (i_name i)) < two64).
        { rewrite <- Hn1. apply parseValue_ok_iff in P as [_ P]. cbn [map concat] in P. apply elem_wf_iff in We.
          assert (nlen (e_val e) < two64) by (apply is_tlv_elem in We as (e2 & W2 & _ & Hv & _); rewrite <- Hv; destruct W2 as (_ & _ & L & _); exact L).
          rewrite P, nlen_app in H. lia. }
        assert (Tl : is_tlv 7 (concat (map comp_octets (n_comps (i_name i)))) (nm_octets (i_name i))).
        { apply tlv_enc_is; try reflexivity. unfold nm_octets in Ln. rewrite tlv_enc_len in Ln. lia. }
        apply elem_wf_iff in Wn'. rewrite Hn1, Tn in Wn'.
        assert (Q : [(7, e_val n)] = [(7, concat (map comp_octets (n_comps (i_name i))))]).
        { apply is_tlv_seq_unique with (nm_octets (i_name i)); rewrite <- (app_nil_r (nm_octets _)); apply seq_cons; auto; apply seq_nil. }
        congruence. }
      pose proof I as ((O1 & _) & _).
      assert (Pn2 : parseValue (e_val n) = Ok (map (fun c => mkBlock (c_type c) (c_val c)) (n_comps (i_name i)))).
      { apply parseValue_ok_iff. split.
        - apply Forall_map. rewrite Forall_forall in O1 |- *. intros y Hy. destruct (O1 y Hy). apply mkBlock_wf; auto.
          assert (Hle : nlen (comp_octets y) <= nlen (e_val n)).
          { rewrite Hw. clear - Hy. induction (n_comps (i_name i)) as [|z l IH]; [destruct Hy|]. cbn [map concat]. rewrite nlen_app.
            destruct Hy as [-> |Hy]; [lia|]. specialize (IH Hy). lia. }
          assert (nlen (e_val n) < two64) by (apply Forall_cons_iff in Wp as [W _]; apply elem_wf_iff in W; destruct W as (_ & _ & L & _); exact L).
          unfold comp_octets in Hle. rewrite tlv_enc_len in Hle. lia.
        - rewrite Hw, map_map. f_equal. apply map_ext. intro y. now rewrite mkBlock_wire. }
      rewrite Pn in Pn2. apply Ok_inj in Pn2. rewrite Eces in Pn2.
      destruct (rev (n_comps (i_name i))) as [|z l] eqn:Rz.
      { apply (f_equal (@rev _)) in Rz. rewrite rev_involutive in Rz. rewrite Rz in Pn2. destruct cse; discriminate. }
      apply rev_last in Rz. rewrite Rz in *. rewrite removelast_last. rewrite map_app in Pn2. cbn [map] in Pn2. apply app_inj_tail in Pn2 as [-> _].
      unfold octets_of. rewrite map_map. f_equal. apply map_ext. intro y. now rewrite mkBlock_wire.
  - intro i0. apply in_decode_iff. auto.
  - intro r'. unfold in_signedRanges, in_encode. rewrite Ew, R, rev_app_distr, rev_involutive. cbn [rev app]. rewrite T2, Fi.
    rewrite (elems_of_ok _ _ P), Ees. change (n :: pre ++ opt_list (Some ap) ++ post) with ((n :: pre) ++ ap :: post).
    unfold tApplicationParameters. destruct (before_eq 36 (n :: pre) (ap :: post)) as [_ ->]; auto; [cbn; intros [|]; [lia|tauto]|].
    cbn [snd]. now rewrite Ea, Eb.
Qed.

Lemma keys_comps : forall l, concat (map comp_octets l) = keys_octets (map ckey l).
Proof. intro l. unfold keys_octets. now rewrite map_map. Qed.
Lemma removelast_map : forall A B (f : A -> B) l, removelast (map f l) = map f (removelast l).
Proof. induction l as [|x [|y l] IH]; auto. cbn in *. now rewrite IH. Qed.

(* before the SignatureValue nothing changes *)
Lemma sval_before : forall e p p', e_type e = 46 -> sig_tail p -> put_sval e p p' ->
  before 46 p' = before 46 p /\ exists rest, p' = before 46 p ++ e :: rest.
Proof.
  intros e p p' Te St [(a & x & b & -> & Tx & N & ->)|(N & a & x & b & -> & Tx & N' & ->)].
  - destruct (before_eq 46 a (x :: b) N Tx) as [-> _]. destruct (before_eq 46 a (e :: b) N Te) as [-> _]. eauto.
  - pose proof (St a x b eq_refl Tx N') as Hb. destruct b as [|y b].
    + assert (N2 : ~ In 46 (map e_type (a ++ [x]))) by exact N.
      destruct (before_eq 46 (a ++ [x]) [] N2 eq_refl) as [B1 _]. rewrite app_nil_r in B1. rewrite B1.
      destruct (before_eq 46 (a ++ [x]) [e] N2 Te) as [B2 _]. rewrite <- app_assoc in B2. cbn in B2. rewrite B2. split; auto.
      exists []. now rewrite <- app_assoc.
    + cbn in Hb. elim N. rewrite map_app. apply in_app_iff. right. cbn. auto.
Qed.
Lemma sinfo_tail : forall e p p', e_type e = 44 -> sig_tail p -> put_sinfo e p p' -> sig_tail p'.
Proof.
  intros e p p' Te St H.
  assert (G : exists a b, p' = a ++ e :: b /\ ~ In 44 (map e_type a) /\ hd 46 (map e_type b) = 46).
  { destruct H as [(a & x & b & -> & Tx & N & ->)|(N & a & b & -> & N' & Hb & ->)].
    - exists a, b. splits; auto. exact (St a x b eq_refl Tx N).
    - exists a, b. splits; auto. intro Z. apply N. rewrite map_app. apply in_app_iff. auto. }
  destruct G as (a & b & -> & N & Hb). intros a' x' b' E Tx' N'.
  destruct (before_eq 44 a (e :: b) N Te) as [_ S1]. destruct (before_eq 44 a' (x' :: b') N' Tx') as [_ S2]. rewrite E, S2 in S1. congruence.
Qed.

Lemma refresh_wire : forall i i', in_refreshDigest sha256 i = (i', None) -> i_wire i' = None.
Proof. intros i i' H. unfold in_refreshDigest in H. destruct (in_withDigest sha256 i) as [j [x|]]; [discriminate|]. injection H as <-. reflexivity. Qed.
Lemma setSigInfo_wire : forall s i i', in_setSigInfo sha256 s i = (i', None) -> i_wire i = None -> i_wire i' = None.
Proof.
  intros s i i' H W. unfold in_setSigInfo in H.
  destruct (si_encode SiInterest s) as [[e s']|]; [|discriminate].
  destruct (split_type tInterestSignatureInfo _) as [a [|x b]].
  - destruct (split_type tInterestSignatureValue _). now apply refresh_wire in H.
  - destruct (elem_eqb x e); [|now apply refresh_wire in H]. injection H as <-. destruct (i_params i); auto.
Qed.
Lemma setSigValue_wire : forall v i i', in_setSigValue sha256 v i = (i', None) -> i' = i \/ i_wire i' = None.
Proof.
  intros v i i' H. unfold in_setSigValue in H.
  destruct (split_type tInterestSignatureInfo _) as [a [|x b]]; [discriminate|].
  destruct (split_type tInterestSignatureValue _) as [c [|y d]].
  - right. now apply refresh_wire in H.
  - destruct (elem_eqb y _); [left; congruence|right; now apply refresh_wire in H].
Qed.
Lemma with_digest_valid : forall n p n', Forall (fun k => fst k = 2 -> nlen (snd k) = 32) n -> with_digest sha256 n p n' ->
  Forall (fun k => fst k = 2 -> nlen (snd k) = 32) n'.
Proof.
  intros n p n' F H. destruct p as [|x p]; [cbn in H; now subst|].
  destruct H as [[_ ->]|(a & y & b & -> & _ & _ & ->)].
  - apply Forall_app. split; auto. constructor; auto. intros _. apply sha_len.
  - apply Forall_app in F as [Fa F]. apply Forall_cons_iff in F as [_ F]. apply Forall_app. split; auto. constructor; auto. intros _. apply sha_len.
Qed.
Lemma with_digest_last : forall n p n' cs v, n = cs ++ [(2, v)] -> nlen v = 32 -> p <> [] -> digests n <> [] -> with_digest sha256 n p n' ->
  exists d, n' = cs ++ [(2, d)].
Proof.
  intros n p n' cs v E L NP Dn H. destruct p as [|x p]; [congruence|].
  destruct H as [[H _]|(a & y & b & En & Hd & Da & ->)]; [congruence|].
  assert (b = []).
  { destruct (rev b) as [|z l] eqn:R; [apply (f_equal (@rev _)) in R; now rewrite rev_involutive in R|].
    apply rev_last in R. exfalso. rewrite R in En. replace (a ++ y :: rev l ++ [z]) with ((a ++ y :: rev l) ++ [z]) in En by (now rewrite <- app_assoc).
    assert (Iy : In y (digests n)) by (rewrite Hd; now left).
    unfold digests in Iy. apply filter_In in Iy as [_ Iy].
    rewrite En, !digests_app, Da in Hd. cbn [app] in Hd.
    rewrite E in En. apply app_inj_tail in En as [En Ez]. subst z.
    apply (f_equal (@length _)) in Hd. rewrite app_length in Hd. unfold digests, key, bytes in *. cbn [filter fst snd] in Hd.
    rewrite Iy, L in Hd. change ((2 =? 2) && (32 =? 32)) with true in Hd. cbn in Hd. lia. }
  subst b. rewrite E in En. apply app_inj_tail in En as [-> _]. eauto.
Qed.

Lemma sign_consistent : forall signer s r i i', in_inv i -> i_wire i = None -> si_for_interest s -> nlen r = 4 ->
  (forall u, nlen (signer u) < 2 ^ 64) -> Forall (fun k => fst k = 2 -> nlen (snd k) = 32) (nkey (i_name i)) ->
  sig_tail (i_params i) -> in_sign sha256 true signer s r i = (i', None) ->
  exists a b e rest, a = keys_octets (removelast (nkey (i_name i'))) /\ b = octets_of (before 46 (i_params i')) /\
    i_params i' = before 46 (i_params i') ++ e :: rest /\ e_type e = 46 /\ e_val e = signer (a ++ b) /\
    (exists cs d, nkey (i_name i') = cs ++ [(2, d)]) /\ In 44 (map e_type (i_params i')) /\ in_inv i' /\
    forall r' i2 e', nlen r' = 4 -> in_encode sha256 true r' i' = (i2, Ok e') ->
      in_signedRanges sha256 true r' i' = (i2, Ok (a, b)).
Proof.
  intros signer s r i i' I W Os Lr Ls Fv St H. unfold in_sign in H.
  destruct (in_setSigInfo sha256 s i) as [i1 [x|]] eqn:S1; [discriminate|].
  destruct (in_signedRanges sha256 true r i1) as [i2 [[a b]|x]] eqn:R; [|discriminate].
  pose proof (in_step_inv _ sha_len (ISetSigInfo s) i i1 I Os S1) as [I1 E1].
  pose proof (setSigInfo_wire _ _ _ S1 W) as W1.
  destruct (ranges_covers r i1 i2 a b I1 Lr R) as (e & cs & d & signed & En & Cv & Kn & _ & _ & Hw & Hd & Hr).
  destruct (Hw W1) as [Sg Ea]. clear Hw.
  pose proof (proj1 (ranges_iff r i1 i2 e I1 Lr En) (ex_intro _ a (ex_intro _ b R))) as [(cs1 & v1 & K1) In44].
  pose proof (encode_inv _ sha_len r i1 i2 e I1 Lr En) as (I2 & Ew & We & Hf & M & D & _).
  assert (Fn : nkey (i_name i2) = nkey (i_name i1) /\ i_params i2 = i_params i1).
  { destruct Hf as [Hf|[_ Hf]]; unfold in_fields, set_nonce in Hf; cbn in Hf; split; congruence. }
  destruct Fn as [Fn Fp].
  assert (Fv1 : Forall (fun k => fst k = 2 -> nlen (snd k) = 32) (nkey (i_name i1)) /\ sig_tail (i_params i1)).
  { unfold in_effect, in_fields in E1. destruct E1 as (e1 & q & p' & We1 & Te1 & _ & Hq & Pp & Hw).
    assert (Sq : sig_tail q).
    { destruct Hq as [[_ ->]|(_ & y & -> & Ty & _)]; auto. intros l z m Em Tz _. destruct l as [|? [|]]; try discriminate. injection Em as -> <-. reflexivity. }
    destruct Hw as [(n' & Wd & Hv)|(Hv & Ht & Hvl)].
    - assert (nkey (i_name i1) = n' /\ i_params i1 = p') as [-> ->] by (cbn in Hv; split; congruence).
      split; [eapply with_digest_valid; eauto|]. eapply sinfo_tail; eauto.
    - assert (nkey (i_name i1) = nkey (i_name i) /\ i_params i1 = i_params i) as [-> ->] by (split; congruence). auto. }
  destruct Fv1 as [Fv1 St1].
  pose proof (in_step_inv _ sha_len (ISetSigValue (signer (a ++ b))) i2 i' I2 (Ls _) H) as [I' E2].
  assert (L32 : nlen v1 = 32).
  { rewrite K1 in Fv1. apply Forall_app in Fv1 as [_ Fv1]. apply Forall_cons_iff in Fv1 as [Fv1 _]. now apply Fv1. }
  assert (NP : i_params i2 <> []) by (rewrite Fp; intro Z; rewrite Z in In44; exact In44).
  unfold in_effect, in_fields in E2. destruct E2 as (ev & p' & Wev & Tev & Vev & Ps & Hw).
  rewrite <- Fp in St1.
  destruct (sval_before ev (i_params i2) p' Tev St1 Ps) as (B & rest & Ep').
  assert (Q : (exists d', nkey (i_name i') = cs1 ++ [(2, d')]) /\ before 46 (i_params i') = before 46 (i_params i2) /\
     exists ev' rest', i_params i' = before 46 (i_params i2) ++ ev' :: rest' /\ e_type ev' = 46 /\ e_val ev' = signer (a ++ b)).
  { destruct Hw as [(n' & Wd & Hv)|(Hv & Ht & Hvl)].
    - cbn in Hv. assert (nkey (i_name i') = n' /\ i_params i' = p') as [-> ->] by (split; congruence).
      splits; auto.
      + apply (with_digest_last (nkey (i_name i2)) p' n' cs1 v1); [rewrite Fn; exact K1|exact L32| | |exact Wd].
        * rewrite Ep'. now destruct (before 46 (i_params i2)).
        * unfold digest_ok in D. rewrite D. now destruct (i_params i2).
      + eauto 6.
    - assert (nkey (i_name i') = nkey (i_name i2) /\ i_params i' = i_params i2) as [-> ->] by (split; congruence).
      splits; auto; [rewrite Fn; eauto|].
      destruct Ps as [(l & y & m & El & Ty & N & Ep)|(N & l & y & m & El & Ty & N' & Ep)].
      + exists y, m. destruct (before_eq 46 l (y :: m) N Ty) as [Bl _]. rewrite El, Bl in *. splits; auto.
        rewrite Ep, !map_app in Hvl. apply app_inv_head in Hvl. cbn in Hvl. congruence.
      + apply (f_equal (@length _)) in Ht. rewrite Ep, El, !map_length, !app_length in Ht. cbn in Ht. lia. }
  destruct Q as ((d' & Kn') & Bn & ev' & rest' & Ep2 & Tev' & Vev').
  assert (Ea2 : a = keys_octets (removelast (nkey (i_name i')))).
  { rewrite Ea, keys_comps, <- removelast_map. fold (nkey (i_name i1)). rewrite K1, Kn', !removelast_last. reflexivity. }
  assert (Eb2 : b = octets_of (before 46 (i_params i'))).
  { destruct Cv as (n0 & pre & ap & mid & skip & rs & Cv). rewrite Bn, Fp, <- Sg. apply Cv. }
  exists a, b, ev', rest'. rewrite Bn. rewrite Bn in Eb2. splits; auto; [eauto| |].
  - assert (In44' : In 44 (map e_type (i_params i2))) by now rewrite Fp.
    destruct (setSigValue_wire _ _ _ H) as [-> |_]; auto.
    destruct Hw as [(n' & Wd & Hv)|(Hv & Ht & Hvl)]; [cbn in Hv; assert (i_params i' = p') as -> by congruence|assert (i_params i' = i_params i2) as -> by congruence; auto].
    destruct Ps as [(l & y & m & El & Ty & N & Ep)|(N & l & y & m & El & Ty & N' & Ep)]; rewrite Ep, El, !map_app, !in_app_iff in *; cbn in *.
    + destruct In44' as [|[|]]; auto. lia.
    + destruct In44' as [|[|]]; auto.
  - intros r' i3 e' Lr' En'. destruct (setSigValue_wire _ _ _ H) as [-> |W'].
    + unfold in_encode in En'. rewrite Ew in En'. assert (i3 = i2) by congruence. subst i3. apply Hr.
    + assert (Hx : exists a' b', in_signedRanges sha256 true r' i' = (i3, Ok (a', b'))).
      { apply (ranges_iff r' i' i3 e' I' Lr' En'). split; [eauto|].
        assert (In44' : In 44 (map e_type (i_params i2))) by now rewrite Fp.
        destruct Hw as [(n' & Wd & Hv)|(Hv & Ht & Hvl)]; [cbn in Hv; assert (i_params i' = p') as -> by congruence|assert (i_params i' = i_params i2) as -> by congruence; auto].
        destruct Ps as [(l & y & m & El & Ty & N & Ep)|(N & l & y & m & El & Ty & N' & Ep)]; rewrite Ep, El, !map_app, !in_app_iff in *; cbn in *.
        + destruct In44' as [|[|]]; auto. lia.
        + destruct In44' as [|[|]]; auto. }
      destruct Hx as (a' & b' & Hx). rewrite Hx.
      destruct (ranges_covers r' i' i3 a' b' I' Lr' Hx) as (e2 & cs2 & d2 & signed2 & _ & Cv2 & _ & _ & _ & Hw2 & _ & _).
      destruct (Hw2 W') as [Sg2 Ea3]. destruct Cv2 as (n0 & pre & ap & mid & skip & rs & Cv2).
      assert (b' = octets_of signed2) by apply Cv2. rewrite keys_comps, <- removelast_map in Ea3. fold (nkey (i_name i')) in Ea3.
      do 3 f_equal; congruence.
Qed.

Lemma range_inj : forall r1 r2 i1 i2 j1 j2 a1 b1 a2 b2, in_inv i1 -> in_inv i2 -> nlen r1 = 4 -> nlen r2 = 4 ->
  in_signedRanges sha256 true r1 i1 = (j1, Ok (a1, b1)) -> in_signedRanges sha256 true r2 i2 = (j2, Ok (a2, b2)) ->
  ~ In 36 (map fst (nkey (i_name i1))) -> ~ In 36 (map fst (nkey (i_name i2))) -> a1 ++ b1 = a2 ++ b2 ->
  removelast (nkey (i_name i1)) = removelast (nkey (i_name i2)) /\ before 46 (i_params i1) = before 46 (i_params i2).
Proof.
  intros r1 r2 i1 i2 j1 j2 a1 b1 a2 b2 I1 I2 L1 L2 R1 R2 N1 N2 E.
  destruct (ranges_covers _ _ _ _ _ I1 L1 R1) as (e1 & cs1 & d1 & sg1 & _ & (n1 & pre1 & ap1 & mid1 & skip1 & rest1 & F1 & _ & _ & Fc1 & _ & _ & _ & Ta1 & _ & _ & _ & _ & S1 & A1 & B1) & K1 & Fl1 & Hd1 & _).
  destruct (ranges_covers _ _ _ _ _ I2 L2 R2) as (e2 & cs2 & d2 & sg2 & _ & (n2 & pre2 & ap2 & mid2 & skip2 & rest2 & F2 & _ & _ & Fc2 & _ & _ & _ & Ta2 & _ & _ & _ & _ & S2 & A2 & B2) & K2 & Fl2 & Hd2 & _).
  assert (P : forall cs sg, Forall elem_ok (cs ++ sg) -> parseValue (octets_of cs ++ octets_of sg) = Ok (cs ++ sg)).
  { intros cs sg F. apply parseValue_ok_iff. split; [|symmetry; apply octets_app]. eapply Forall_impl; [|exact F]. intros y Hy. now apply elem_wf_iff. }
  assert (G1 : Forall elem_ok (cs1 ++ sg1)).
  { apply Forall_app in Fc1 as [Fc1 _]. apply Forall_app. split; auto. rewrite S1. apply Forall_cons_iff in F1 as [_ F1]. apply Forall_app in F1 as [_ F1].
    change (ap1 :: mid1 ++ skip1 ++ rest1) with ((ap1 :: mid1) ++ skip1 ++ rest1) in F1. now apply Forall_app in F1 as [F1 _]. }
  assert (G2 : Forall elem_ok (cs2 ++ sg2)).
  { apply Forall_app in Fc2 as [Fc2 _]. apply Forall_app. split; auto. rewrite S2. apply Forall_cons_iff in F2 as [_ F2]. apply Forall_app in F2 as [_ F2].
    change (ap2 :: mid2 ++ skip2 ++ rest2) with ((ap2 :: mid2) ++ skip2 ++ rest2) in F2. now apply Forall_app in F2 as [F2 _]. }
  apply P in G1. apply P in G2. rewrite A1, B1, A2, B2 in E. rewrite E, G2 in G1. apply Ok_inj in G1.
  assert (M1 : ~ In 36 (map e_type cs1)).
  { intro Z. apply N1. rewrite K1, map_map, map_app. apply in_app_iff. left. exact Z. }
  assert (M2 : ~ In 36 (map e_type cs2)).
  { intro Z. apply N2. rewrite K2, map_map, map_app. apply in_app_iff. left. exact Z. }
  destruct (before_eq 36 cs1 sg1 M1) as [_ Q1]; [rewrite S1; exact Ta1|]. destruct (before_eq 36 cs2 sg2 M2) as [_ Q2]; [rewrite S2; exact Ta2|].
  rewrite <- G1, Q2 in Q1. assert (cs1 = cs2 /\ sg1 = sg2) as [-> ->] by (split; congruence).
  split.
  - rewrite K1, K2, !map_app. cbn [map]. now rewrite !removelast_last.
  - rewrite Fl1 in Fl2. rewrite Hd1 in Hd2. rewrite S2 in Hd1. cbn in Hd1.
    destruct (i_params i1) as [|p1 q1]; [discriminate|]. destruct (i_params i2) as [|p2 q2]; [discriminate|]. cbn in Hd1, Hd2.
    assert (p1 = ap2 /\ p2 = ap2) as [-> ->] by (split; congruence).
    unfold before in *. cbn [split_type] in *. destruct (N.eqb_spec (e_type ap2) 46); [lia|].
    destruct (split_type 46 q1), (split_type 46 q2). cbn in *. now rewrite Fl2.
Qed.

Lemma matches_data : forall i d d' x, da_inv sha256 d -> in_matchesData sha256 i d = (d', x) ->
  (forall b, x = Ok b ->
    (b = true <-> nkey (i_name i) = nkey (d_name d) \/ (i_cbp i = true /\ exists s, nkey (d_name d) = nkey (i_name i) ++ s) \/
      exists d2 e, da_encode d = (d2, Ok e) /\ nkey (i_name i) = nkey (d_name d) ++ [(1, sha256 (e_wire e))])) /\
  (forall e, d_wire d = Some e -> exists b, x = Ok b) /\ da_fields d' = da_fields d /\ d_wire d' = d_wire d.
Proof.
  intros i d d' x I H. unfold in_matchesData in H.
  assert (Len : forall n, length (n_comps n) = length (nkey n)) by (intro; unfold nkey; now rewrite map_length).
  destruct (N.eqb_spec (nm_size (i_name i)) (nm_size (d_name d) + 1)) as [E|E].
  - assert (E' : length (nkey (i_name i)) = S (length (nkey (d_name d)))) by (rewrite <- !Len; unfold nm_size, nlen in E; lia).
    destruct (rev (n_comps (i_name i))) as [|c cs] eqn:R.
    { apply (f_equal (@rev _)) in R. rewrite rev_involutive in R. rewrite <- Len, R in E'. discriminate. }
    apply rev_last in R.
    assert (K : nkey (i_name i) = map ckey (rev cs) ++ [ckey c]) by (unfold nkey; rewrite R, map_app; reflexivity).
    assert (N1 : nkey (i_name i) <> nkey (d_name d)) by (intro Z; rewrite Z in E'; lia).
    assert (N2 : ~ exists s, nkey (d_name d) = nkey (i_name i) ++ s) by (intros (s & Z); rewrite Z, app_length in E'; lia).
    unfold isImplicitSha256Digest in H.
    destruct ((c_type c =? tImplicitSha256DigestComponent) && (nlen (c_val c) =? 32)) eqn:Dg.
    + destruct (da_getFullName sha256 d) as [d1 [full|y]] eqn:F; injection H as <- <-;
        pose proof (full_ok _ sha_len _ _ _ I F) as (_ & Ff & Fw & Fk).
      * splits; auto; [|eauto]. intros b [= <-]. destruct (Fk full eq_refl) as (e & We & Kf). rewrite nm_equals_iff, Kf. split.
        -- intro Z. right. right. exists d, e. split; auto. unfold da_encode. now rewrite We.
        -- intros [Z|[[_ Z]|(d2 & e2 & En & Z)]]; [tauto|tauto|]. unfold da_encode in En. rewrite We in En. congruence.
      * splits; auto; [discriminate|]. intros e We. exfalso. unfold da_getFullName in F. destruct (n_comps (d_full d)); [|discriminate].
        rewrite We in F. destruct (comp_sha' sha256 sha_len (e_wire e)) as (c1 & Ec & _). rewrite Ec in F. discriminate.
    + injection H as <- <-. splits; auto; [|eauto]. intros b [= <-]. split; [discriminate|].
      intros [Z|[[_ Z]|(d2 & e2 & En & Z)]]; [tauto|tauto|]. rewrite K in Z. apply app_inj_tail in Z as [_ Z].
      unfold ckey in Z. injection Z as Z1 Z2. rewrite Z1, Z2, sha_len in Dg. discriminate.
  - assert (N3 : ~ exists d2 e, da_encode d = (d2, Ok e) /\ nkey (i_name i) = nkey (d_name d) ++ [(1, sha256 (e_wire e))]).
    { intros (d2 & e & _ & Z). apply E. apply (f_equal (@length _)) in Z. rewrite app_length, <- !Len in Z. cbn in Z. unfold nm_size, nlen. lia. }
    destruct (i_cbp i) eqn:C; injection H as <- <-; splits; auto; try (eauto; fail).
    + intros b [= <-]. rewrite nm_isPrefixOf_iff. split.
      * intros (s & Z). right. left. eauto.
      * intros [Z|[[_ Z]|Z]]; [exists []; now rewrite app_nil_r|auto|tauto].
    + intros b [= <-]. rewrite nm_equals_iff. split; auto. intros [Z|[[Z _]|Z]]; [auto|discriminate|tauto].
Qed.
End WithSha.
