(* Proofs about Interest decoding. *)
From Coq Require Import Lia ZifyBool ZifyNat ZifyN.
From Verif Require Import Base BaseLemmas M_Tlv P_Tlv S_Tlv P_Block M_Str M_Name S_Name P_Name P_NameUri M_Packet S_Packet P_Packet P_Data P_DataT.
From Verif Require Import M_Interest S_Interest.

(* ---- parameters digest components ---- *)
Definition isd (c : comp) : bool := isParametersSha256Digest c.
Lemma digests_comps : forall cs, digests (map ckey cs) = map ckey (filter isd cs).
Proof. intro cs. unfold digests. now rewrite filter_map. Qed.
Lemma existsb_filter : forall A (f : A -> bool) l, existsb f l = false -> filter f l = [].
Proof.
  induction l as [|y l IH]; cbn; auto. intro X. apply orb_false_iff in X as [X1 X2]. rewrite X1. auto.
Qed.
Lemma digest_from_at : forall cs j k, digest_from j (DAt k) cs = if existsb isd cs then DMany else DAt k.
Proof.
  induction cs as [|c cs IH]; intros j k; cbn [digest_from existsb]; auto.
  unfold isd at 1. destruct (isParametersSha256Digest c); cbn [orb]; auto.
Qed.
Lemma digest_from_none : forall cs j,
  match digest_from j DNone cs with
  | DNone => filter isd cs = []
  | DAt k => exists a c b, cs = a ++ c :: b /\ (k = j + length a)%nat /\ isd c = true /\ filter isd a = [] /\ filter isd b = []
  | DMany => (2 <= length (filter isd cs))%nat
  end.
Proof.
  induction cs as [|c cs IH]; intro j; cbn [digest_from filter]; auto.
  destruct (isParametersSha256Digest c) eqn:D; fold (isd c) in D; rewrite D.
  - rewrite digest_from_at. destruct (existsb isd cs) eqn:X.
    + apply existsb_exists in X as (y & Hy & Dy). cbn [length].
      assert (In y (filter isd cs)) by (apply filter_In; auto). destruct (filter isd cs); [easy|cbn; lia].
    + exists [], c, cs. splits; auto; now apply existsb_filter.
  - specialize (IH (S j)). destruct (digest_from (S j) DNone cs); auto.
    destruct IH as (a & x & b & -> & -> & Dx & Fa & Fb). exists (c :: a), x, b.
    splits; auto; [cbn; lia|]. cbn [filter]. now rewrite D.
Qed.
Lemma digestIndex_spec : forall n,
  match digestIndex n with
  | DNone => digests (nkey n) = []
  | DAt k => exists a c b, n_comps n = a ++ c :: b /\ k = length a /\ isd c = true /\
      digests (map ckey a) = [] /\ digests (map ckey b) = [] /\ digests (nkey n) = [ckey c]
  | DMany => (2 <= length (digests (nkey n)))%nat
  end.
Proof.
  intro n. unfold digestIndex, nkey. pose proof (digest_from_none (n_comps n) 0) as H.
  destruct (digest_from 0 DNone (n_comps n)).
  - now rewrite digests_comps, H.
  - now rewrite digests_comps, map_length.
  - destruct H as (a & c & b & E & -> & D & Fa & Fb). exists a, c, b. rewrite !digests_comps, Fa, Fb. splits; auto.
    rewrite E, filter_app. cbn [filter]. now rewrite Fa, D, Fb.
Qed.

(* ---- the loop ---- *)
Definition recI (e : elem) : bool := in_recognised (e_type e).
Lemma rank_cases : forall t,
  (t = 33 /\ in_rank t = 2) \/ (t = 18 /\ in_rank t = 3) \/ (t = 30 /\ in_rank t = 4) \/ (t = 10 /\ in_rank t = 5) \/
  (t = 12 /\ in_rank t = 6) \/ (t = 34 /\ in_rank t = 7) \/ (t = 36 /\ in_rank t = 8) \/
  (t <> 33 /\ t <> 18 /\ t <> 30 /\ t <> 10 /\ t <> 12 /\ t <> 34 /\ t <> 36 /\ in_rank t = 0).
Proof.
  intro t. unfold in_rank.
  repeat match goal with |- context [if ?x =? ?y then _ else _] => destruct (N.eqb_spec x y) end; lia.
Qed.

(* the effect of a recognised element on the object *)
Definition app_field (e : elem) (i : interest) : option interest :=
  let '(mkInt n cbp mbf fh nonce life hop par w) := i in
  let t := e_type e in
  if t =? 33 then (if nlen (e_val e) =? 0 then Some (mkInt n true mbf fh nonce life hop par w) else None)
  else if t =? 18 then (if nlen (e_val e) =? 0 then Some (mkInt n cbp true fh nonce life hop par w) else None)
  else if t =? 30 then match (let! sub := parseValue (e_val e) in fh_decode sub) with
                       | Ok l => Some (mkInt n cbp mbf (fh ++ l) nonce life hop par w) | Err _ => None end
  else if t =? 10 then (if nlen (e_val e) =? 4 then Some (mkInt n cbp mbf fh (Some (e_val e)) life hop par w) else None)
  else if t =? 12 then match readNNIBlock e with
                       | Ok v => Some (mkInt n cbp mbf fh nonce v hop par w) | Err _ => None end
  else if t =? 34 then match e_val e with
                       | [h] => Some (mkInt n cbp mbf fh nonce life (Some h) par w) | _ => None end
  else Some (mkInt n cbp mbf fh nonce life hop (par ++ [e]) w).

Ltac eqtypes e :=
  unfold tCanBePrefix, tMustBeFresh, tForwardingHint, tNonce, tInterestLifetime, tHopLimit, tApplicationParameters in *.

(* one step of the loop *)
Lemma loop_cons : forall e es last i i',
  in_loop (e :: es) last i = (i', None) <->
  (recI e = true /\ last < in_rank (e_type e) /\ exists i1, app_field e i = Some i1 /\
     in_loop es (in_rank (e_type e)) i1 = (i', None)) \/
  ((e_type e = 34 \/ e_type e = 36) /\ in_rank (e_type e) <= last /\ in_loop es last i = (i', None)) \/
  (recI e = false /\ ~ critical (e_type e) /\
     in_loop es last (if in_hasParams i then in_setP (i_params i ++ [e]) i else i) = (i', None)).
Proof.
  intros e es last i i'. destruct i as [n cbp mbf fh nonce life hop par w].
  unfold recI, in_recognised. cbn [in_loop]. unfold app_field, in_setP. cbn [i_name i_cbp i_mbf i_fh i_nonce i_life i_hop i_params i_wire].
  eqtypes e.
  destruct (rank_cases (e_type e)) as [H|[H|[H|[H|[H|[H|[H|H]]]]]]].
  1-7: destruct H as [Ht Hr]; rewrite Hr, Ht; cbn [N.eqb Pos.eqb negb].
  - destruct (2 <=? last) eqn:L; [split; [discriminate|intros [(_ & ? & _)|[([?|?] & _)|(? & _)]]; lia]|].
    destruct (nlen (e_val e) =? 0); cbn [negb].
    + split; [intro H; left; splits; auto; [lia|eexists; split; [reflexivity|exact H]]|intros [(_ & _ & i1 & [= <-] & H)|[([?|?] & _)|(? & _)]]; auto; lia].
    + split; [discriminate|intros [(_ & _ & i1 & ? & H)|[([?|?] & _)|(? & _)]]; try lia; discriminate].
  - destruct (3 <=? last) eqn:L; [split; [discriminate|intros [(_ & ? & _)|[([?|?] & _)|(? & _)]]; lia]|].
    destruct (nlen (e_val e) =? 0); cbn [negb].
    + split; [intro H; left; splits; auto; [lia|eexists; split; [reflexivity|exact H]]|intros [(_ & _ & i1 & [= <-] & H)|[([?|?] & _)|(? & _)]]; auto; lia].
    + split; [discriminate|intros [(_ & _ & i1 & ? & H)|[([?|?] & _)|(? & _)]]; try lia; discriminate].
  - destruct (4 <=? last) eqn:L; [split; [discriminate|intros [(_ & ? & _)|[([?|?] & _)|(? & _)]]; lia]|].
    destruct (let! sub := parseValue (e_val e) in fh_decode sub).
    + split; [intro H; left; splits; auto; [lia|eexists; split; [reflexivity|exact H]]|intros [(_ & _ & i1 & [= <-] & H)|[([?|?] & _)|(? & _)]]; auto; lia].
    + split; [discriminate|intros [(_ & _ & i1 & ? & H)|[([?|?] & _)|(? & _)]]; try lia; discriminate].
  - destruct (5 <=? last) eqn:L; [split; [discriminate|intros [(_ & ? & _)|[([?|?] & _)|(? & _)]]; lia]|].
    destruct (nlen (e_val e) =? 4); cbn [negb].
    + split; [intro H; left; splits; auto; [lia|eexists; split; [reflexivity|exact H]]|intros [(_ & _ & i1 & [= <-] & H)|[([?|?] & _)|(? & _)]]; auto; lia].
    + split; [discriminate|intros [(_ & _ & i1 & ? & H)|[([?|?] & _)|(? & _)]]; try lia; discriminate].
  - destruct (6 <=? last) eqn:L; [split; [discriminate|intros [(_ & ? & _)|[([?|?] & _)|(? & _)]]; lia]|].
    destruct (readNNIBlock e).
    + split; [intro H; left; splits; auto; [lia|eexists; split; [reflexivity|exact H]]|intros [(_ & _ & i1 & [= <-] & H)|[([?|?] & _)|(? & _)]]; auto; lia].
    + split; [discriminate|intros [(_ & _ & i1 & ? & H)|[([?|?] & _)|(? & _)]]; try lia; discriminate].
  - destruct (7 <=? last) eqn:L.
    + split; [intro H; right; left; splits; auto; lia|intros [(_ & ? & _)|[(_ & _ & ?)|(? & _)]]; auto; lia].
    + destruct (e_val e) as [|h [|]].
      * split; [discriminate|intros [(_ & _ & i1 & ? & H)|[([?|?] & ? & _)|(? & _)]]; try lia; discriminate].
      * split; [intro H; left; splits; auto; [lia|eexists; split; [reflexivity|exact H]]|intros [(_ & _ & i1 & [= <-] & H)|[([?|?] & ? & _)|(? & _)]]; auto; lia].
      * split; [discriminate|intros [(_ & _ & i1 & ? & H)|[([?|?] & ? & _)|(? & _)]]; try lia; discriminate].
  - destruct (8 <=? last) eqn:L.
    + split; [intro H; right; left; splits; auto; lia|intros [(_ & ? & _)|[(_ & _ & ?)|(? & _)]]; auto; lia].
    + split; [intro H; left; splits; auto; [lia|eexists; split; [reflexivity|exact H]]|intros [(_ & _ & i1 & [= <-] & H)|[([?|?] & ? & _)|(? & _)]]; auto; lia].
  - destruct H as (H1 & H2 & H3 & H4 & H5 & H6 & H7 & Hr). rewrite Hr.
    repeat match goal with |- context [if ?x =? ?y then _ else _] => destruct (N.eqb_spec x y); [lia|] end.
    cbn [negb N.eqb]. rewrite <- isCritical_false.
    destruct (isCriticalType (e_type e)) eqn:C.
    + split; [discriminate|intros [(? & _)|[([?|?] & _)|(_ & ? & _)]]; try lia; discriminate].
    + destruct (in_hasParams (mkInt n cbp mbf fh nonce life hop par w));
      (split; [intro H; right; right; splits; auto|intros [(? & _)|[([?|?] & _)|(_ & _ & ?)]]; auto; try lia; discriminate]).
Qed.

Lemma app_params : forall e i i1, app_field e i = Some i1 -> e_type e <> 36 -> in_rank (e_type e) <> 0 -> i_params i1 = i_params i.
Proof.
  intros e [n cbp mbf fh nonce life hop par w] i1 H N R. unfold app_field in H.
  repeat match type of H with
  | context [if ?x =? ?y then _ else _] => destruct (N.eqb_spec x y)
  | match ?x with _ => _ end = _ => destruct x; try discriminate
  end; try discriminate; try (injection H as <-; reflexivity).
  exfalso. destruct (rank_cases (e_type e)); lia.
Qed.

(* rejection *)
Lemma loop_elem : forall a x b last i i', in_loop (a ++ x :: b) last i = (i', None) ->
  exists last1 last2 i1 i2, last <= last1 /\ last1 <= last2 /\ in_rank (e_type x) <= last2 /\
    in_loop (x :: b) last1 i1 = (i', None) /\ in_loop b last2 i2 = (i', None) /\
    (recI x = true -> critical (e_type x) -> last1 < in_rank (e_type x) /\ exists i3, app_field x i1 = Some i3) /\
    (recI x = false -> ~ critical (e_type x)).
Proof.
  induction a as [|y a IH]; intros x b last i i' H; cbn [app] in H.
  - exists last. pose proof H as H0. apply loop_cons in H as [(R & L & i1 & A & H)|[(T & L & H)|(R & C & H)]].
    + exists (in_rank (e_type x)), i, i1. splits; auto; try lia; [eauto|congruence].
    + exists last, i, i. splits; auto; try lia.
      * intros _ C. exfalso. destruct T as [T|T]; rewrite T in C; unfold critical in C; destruct C as [C|C]; [lia|discriminate C|lia|discriminate C].
      * intro R. exfalso. unfold recI, in_recognised in R. destruct T as [T|T]; rewrite T in R; discriminate R.
    + exists last, i. eexists. splits; eauto; try lia. 
      * unfold recI, in_recognised in R. lia.
      * congruence.
  - apply loop_cons in H as [(R & L & i1 & A & H)|[(T & L & H)|(R & C & H)]].
    + apply IH in H as (l1 & l2 & i2 & i3 & ?). exists l1, l2, i2, i3. intuition lia.
    + apply IH in H as (l1 & l2 & i2 & i3 & ?). exists l1, l2, i2, i3. intuition lia.
    + apply IH in H as (l1 & l2 & i2 & i3 & ?). exists l1, l2, i2, i3. intuition lia.
Qed.

(* after ApplicationParameters *)
Definition stored (x : elem) : bool := negb ((e_type x =? 34) || (e_type x =? 36)).
Lemma in_setP_same : forall i, in_setP (i_params i) i = i.
Proof. intros []; reflexivity. Qed.
Lemma loop_post : forall es last i i', 8 <= last -> in_hasParams i = true ->
  (in_loop es last i = (i', None) <->
   Forall (fun e => ~ critical (e_type e)) es /\ i' = in_setP (i_params i ++ filter stored es) i).
Proof.
  induction es as [|e es IH]; intros last i i' L P.
  - cbn. rewrite app_nil_r, in_setP_same. split; [intros [= <-]; auto|intros [_ ->]; auto].
  - rewrite loop_cons, Forall_cons_iff. cbn [filter]. unfold stored at 1.
    pose proof (rank_cases (e_type e)) as RC.
    assert (NP : in_hasParams (in_setP (i_params i ++ [e]) i) = true) by (unfold in_setP, in_hasParams; cbn; destruct (i_params i); reflexivity).
    split.
    + intros [(R & K & _)|[(T & K & H)|(R & C & H)]].
      * lia.
      * apply IH in H as [F ->]; auto. split; [split; auto|].
        -- unfold critical. destruct T as [T|T]; rewrite T; intros [|]; [lia|discriminate|lia|discriminate].
        -- destruct T as [T|T]; rewrite T; reflexivity.
      * rewrite P in H. apply IH in H as [F ->]; auto. split; auto.
        unfold recI, in_recognised in R. 
        destruct (N.eqb_spec (e_type e) 34); [lia|]. destruct (N.eqb_spec (e_type e) 36); [lia|]. cbn [orb negb].
        unfold in_setP; cbn. now rewrite <- app_assoc.
    + intros [[C F] ->]. right. destruct (N.eqb_spec (e_type e) 34) as [T|T34].
      { left. splits; auto; [lia|]. apply IH; auto. }
      destruct (N.eqb_spec (e_type e) 36) as [T|T36].
      { left. splits; auto; [lia|]. apply IH; auto. }
      right. assert (R : in_rank (e_type e) = 0).
      { unfold critical in C. destruct RC as [H|[H|[H|[H|[H|[H|[H|H]]]]]]]; try lia; destruct H as [H _]; exfalso; apply C; rewrite H; (left; lia) || (right; reflexivity). }
      splits; auto; [unfold recI, in_recognised; now rewrite R|]. rewrite P. apply IH; auto. split; auto.
      unfold in_setP; cbn. now rewrite <- app_assoc.
Qed.

(* before it: unrecognised elements are skipped *)
Lemma loop_filter : forall pre T last i i', Forall (fun e => e_type e <> 36) pre -> i_params i = [] ->
  (in_loop (pre ++ T) last i = (i', None) <->
   Forall (fun e => recI e = false -> ~ critical (e_type e)) pre /\
   in_loop (filter recI pre ++ T) last i = (i', None)).
Proof.
  induction pre as [|e pre IH]; intros T last i i' N P; cbn [app filter].
  - split; auto. now intros [_ H].
  - apply Forall_cons_iff in N as [Ne N]. rewrite Forall_cons_iff, loop_cons.
    destruct (recI e) eqn:R.
    + cbn [app]. rewrite loop_cons. split.
      * intros [(_ & L & i1 & A & H)|[(T' & L & H)|(? & _)]]; [| |congruence].
        -- pose proof (app_params _ _ _ A Ne) as Pi. apply IH in H as [F H]; auto;
             try (rewrite Pi; auto; unfold recI, in_recognised in R; lia).
           split; [split; [discriminate|exact F]|]. left. splits; auto. exists i1. auto.
        -- apply IH in H as [F H]; auto. split; [split; [discriminate|exact F]|]. right; left. splits; auto.
      * intros [[_ F] [(_ & L & i1 & A & H)|[(T' & L & H)|(? & _)]]]; [| |congruence].
        -- left. splits; auto. exists i1. split; auto.
           pose proof (app_params _ _ _ A Ne) as Pi. apply IH; auto. rewrite Pi; auto. unfold recI, in_recognised in R; lia.
        -- right; left. splits; auto. apply IH; auto.
    + assert (HP : in_hasParams i = false) by (unfold in_hasParams; now rewrite P). rewrite HP.
      split.
      * intros [(? & _)|[(T' & L & H)|(_ & C & H)]]; [congruence| |].
        -- exfalso. unfold recI, in_recognised in R. destruct T' as [T'|T']; rewrite T' in R; discriminate R.
        -- apply IH in H as [F H]; auto.
      * intros [[C F] H]. right; right. splits; auto. apply IH; auto.
Qed.

(* one optional field of rank k+1 *)
Definition apply_opt (o : option elem) (i : interest) : option interest :=
  match o with None => Some i | Some e => app_field e i end.
Definition tail_ok (T : list elem) : Prop := match T with [] => True | e :: _ => e_type e = 36 end.
Lemma loop_tail : forall T k k' i, tail_ok T -> k <= 7 -> k' <= 7 -> forall i', in_loop T k i = (i', None) <-> in_loop T k' i = (i', None).
Proof.
  intros [|e T] k k' i HT K K' i'; [tauto|]. cbn in HT. rewrite !loop_cons, HT. change (in_rank 36) with 8.
  assert (recI e = true) by (unfold recI; now rewrite HT).
  split; intros [(? & ? & i1 & ? & ?)|[(? & ? & _)|(? & _)]]; try lia; try congruence; left; splits; auto; try lia; exists i1; auto.
Qed.
Lemma loop_stage : forall k es T i i', 1 <= k -> k <= 5 -> tail_ok T ->
  Forall (fun e => recI e = true /\ e_type e <> 36) es ->
  (in_loop (es ++ T) k i = (i', None) <->
   exists o r i1, es = opt_list o ++ r /\ (forall e, o = Some e -> in_rank (e_type e) = k + 1) /\
     (k < 5 -> r <> [] -> k + 1 < in_rank (hd 0 (map e_type r))) /\
     apply_opt o i = Some i1 /\ in_loop (r ++ T) (k + 1) i1 = (i', None)).
Proof.
  intros k es T i i' K1 K5 HT F. split.
  - intro H. destruct es as [|e es].
    + exists None, [], i. cbn in H. splits; auto; try discriminate; try easy.
      cbn. eapply loop_tail; [| | |exact H]; auto; lia.
    + pose proof F as F0. apply Forall_cons_iff in F as [[R N] F]. cbn [app] in H.
      destruct (N.eq_dec (in_rank (e_type e)) (k + 1)) as [E|E].
      * apply loop_cons in H as [(_ & L & i1 & A & H)|[([T'|T'] & L & H)|(? & _)]]; try congruence.
        -- exists (Some e), es, i1. splits; auto.
           ++ intros x [= <-]. auto.
           ++ intros L5 NE. destruct es as [|x es]; [easy|]. cbn [map hd]. cbn [app] in H.
              apply Forall_cons_iff in F as [[R2 N2] _]. rewrite E in H.
              apply loop_cons in H as [(_ & L' & _)|[([T'|T'] & L' & H)|(? & _)]]; try congruence; auto.
              rewrite T' in *. change (in_rank 34) with 7 in *. lia.
           ++ now rewrite <- E.
        -- rewrite T' in *. change (in_rank 34) with 7 in *. lia.
      * exists None, (e :: es), i. splits; auto; try discriminate.
        -- intros _ _. cbn. apply loop_cons in H as [(_ & L & _)|[([T'|T'] & L & H)|(? & _)]]; try congruence; try lia.
           rewrite T' in *. change (in_rank 34) with 7 in *. lia.
        -- cbn [app]. apply loop_cons. apply loop_cons in H as [(_ & L & i1 & A & H)|[([T'|T'] & L & H)|(? & _)]]; try congruence.
           ++ left. splits; auto; [lia|]. exists i1. auto.
           ++ rewrite T' in *. change (in_rank 34) with 7 in *. lia.
  - intros (o & r & i1 & -> & Ho & Hr & A & H). destruct o as [e|]; cbn [opt_list app apply_opt] in *.
    + specialize (Ho e eq_refl). apply Forall_cons_iff in F as [[R N] _]. apply loop_cons. left. splits; auto; [lia|].
      exists i1. rewrite Ho. auto.
    + injection A as <-. destruct r as [|x r].
      * cbn [app] in *. eapply loop_tail; [| | |exact H]; auto; lia.
      * cbn [app] in *. apply Forall_cons_iff in F as [[R N] F]. apply loop_cons.
        apply loop_cons in H as [(_ & L & i1 & A & H)|[([T'|T'] & L & H)|(? & _)]]; try congruence.
        -- left. splits; auto; [lia|]. exists i1. auto.
        -- rewrite T' in *. change (in_rank 34) with 7 in *. lia.
Qed.
(* HopLimits *)
Lemma loop_hops7 : forall hs T i i', Forall (fun e => e_type e = 34) hs ->
  (in_loop (hs ++ T) 7 i = (i', None) <-> in_loop T 7 i = (i', None)).
Proof.
  induction hs as [|e hs IH]; intros T i i' F; [tauto|]. apply Forall_cons_iff in F as [E F]. cbn [app].
  rewrite loop_cons, E. change (in_rank 34) with 7. rewrite IH by auto.
  assert (recI e = true) by (unfold recI; now rewrite E).
  split; [intros [(_ & ? & _)|[(_ & _ & ?)|(? & _)]]; auto; try lia; congruence|intro; right; left; splits; auto; lia].
Qed.
Lemma loop_hops : forall hs T i i', tail_ok T -> Forall (fun e => recI e = true /\ e_type e <> 36) hs ->
  (in_loop (hs ++ T) 6 i = (i', None) <->
   Forall (fun e => e_type e = 34) hs /\
   exists i1, apply_opt (match hs with [] => None | e :: _ => Some e end) i = Some i1 /\ in_loop T 7 i1 = (i', None)).
Proof.
  intros hs T i i' HT F. destruct hs as [|e hs].
  - cbn [app apply_opt]. split.
    + intro H. split; auto. exists i. split; auto. eapply loop_tail; [| | |exact H]; auto; lia.
    + intros [_ (i1 & [= <-] & H)]. eapply loop_tail; [| | |exact H]; auto; lia.
  - apply Forall_cons_iff in F as [[R N] F]. cbn [app apply_opt]. rewrite Forall_cons_iff, loop_cons.
    assert (K : forall r i1, 7 <= r -> in_loop (hs ++ T) r i1 = (i', None) -> r = 7 -> Forall (fun x => e_type x = 34) hs).
    { clear - F HT. intros r i1 _ H ->. revert i1 H. induction hs as [|x hs IH]; intros i1 H; auto.
      apply Forall_cons_iff in F as [[R N] F]. cbn [app] in H.
      apply loop_cons in H as [(_ & L & i2 & A & H)|[([T'|T'] & L & H)|(? & _)]]; try congruence.
      - exfalso. destruct (rank_cases (e_type x)) as [?|[?|[?|[?|[?|[?|[?|?]]]]]]]; lia.
      - constructor; auto. eapply IH; eauto. }
    split.
    + intros [(_ & L & i1 & A & H)|[([T'|T'] & L & H)|(? & _)]]; try congruence.
      * assert (E : e_type e = 34) by (destruct (rank_cases (e_type e)) as [?|[?|[?|[?|[?|[?|[?|?]]]]]]]; lia).
        rewrite E in H. change (in_rank 34) with 7 in H. assert (F7 : Forall (fun x => e_type x = 34) hs) by (eapply K; eauto; lia).
        splits; auto. exists i1. split; auto. eapply loop_hops7; eauto.
      * rewrite T' in L. change (in_rank 34) with 7 in L. lia.
    + intros [[E F7] (i1 & A & H)]. left. rewrite E. change (in_rank 34) with 7. splits; auto; [lia|].
      exists i1. split; auto. apply loop_hops7; auto.
Qed.
