(* Proofs about NFD's datasets: equality, errors, dataset payloads; control responses. *)
From Coq Require Import ZArith Lia ZifyBool ZifyNat ZifyN Permutation.
From Verif Require Import Base BaseLemmas M_Tlv S_Tlv P_Tlv P_Block M_Name S_Name P_Name P_Packet P_Data P_InterestD P_IntPolicy M_Control S_Control P_Control M_Signer M_NfdData S_NfdData P_NfdData P_NfdData2.
Open Scope N_scope.

(* ---- equality ---- *)
Lemma f2_len : forall A B (R : A -> B -> Prop) l m, Forall2 R l m -> List.length l = List.length m.
Proof. induction 1; cbn; auto. Qed.
Section Match.
Variable A : Type.
Variable eqb : A -> A -> bool.
Variable R : A -> A -> Prop.
Definition unmarked (bs : list (A * bool)) : list A := map fst (filter (fun x => negb (snd x)) bs).
(* eqb decides R, and elements equal to the same one are equal to each other *)
Hypothesis eqb_R : forall x y, eqb y x = true <-> R x y.
Hypothesis R_swap : forall x y x' y', R x y -> R x' y -> R x y' -> R x' y'.
Lemma mark_some : forall x bs bs', mark A eqb x bs = Some bs' -> exists y u, R x y /\ Permutation (unmarked bs) (y :: u) /\ Permutation (unmarked bs') u.
Proof.
  intros x. induction bs as [|[b m] bs IH]; intros bs' H; cbn [mark] in H; [discriminate|]. destruct (negb m && eqb b x) eqn:E.
  - injection H as <-. apply andb_prop in E as [E1 E2]. destruct m; [discriminate|]. apply eqb_R in E2. exists b, (unmarked bs). split; [exact E2|]. split; apply Permutation_refl.
  - destruct (mark A eqb x bs) as [l|] eqn:M; [|discriminate]. injection H as <-. destruct (IH _ eq_refl) as (y & u & R1 & P1 & P2). destruct m.
    + exists y, u. auto.
    + exists y, (b :: u). split; auto. unfold unmarked in *. cbn. split; [rewrite P1; apply perm_swap|now rewrite P2].
Qed.
Lemma mark_none : forall x bs, mark A eqb x bs = None -> forall y, In y (unmarked bs) -> ~ R x y.
Proof.
  intros x. induction bs as [|[b m] bs IH]; intros H y I; cbn in I; [contradiction|]. cbn [mark] in H. destruct (negb m && eqb b x) eqn:E; [discriminate|]. destruct (mark A eqb x bs) eqn:M; [discriminate|].
  destruct m; cbn in I; [now apply IH|]. destruct I as [<-|I]; [|now apply IH]. cbn in E. intro X. apply eqb_R in X. congruence.
Qed.
Lemma forall2_swap : forall l p, Forall2 R l p -> forall y z u, Permutation p (y :: u) -> forall x, R x y -> R x z -> exists p', Permutation p' (z :: u) /\ Forall2 R l p'.
Proof.
  intros l p F. induction F as [|a b l p RB F IH]; intros y z u P x RY RZ; [apply Permutation_nil in P; discriminate|].
  assert (I : In y (b :: p)) by (rewrite P; now left). destruct I as [->|I].
  - apply Permutation_cons_inv in P. exists (z :: p). split; [now rewrite P|]. constructor; auto. eapply R_swap; eauto.
  - apply in_split in I as (p1 & p2 & ->). assert (P' : Permutation (b :: p1 ++ p2) u). { apply Permutation_cons_inv with y. rewrite <- P. rewrite perm_swap. apply perm_skip. apply Permutation_middle. }
    destruct (IH y z (p1 ++ p2)) with (x := x) as (p' & P1 & F1); auto; [symmetry; apply Permutation_middle|]. exists (b :: p'). split; [|constructor; auto]. rewrite P1, perm_swap. now apply perm_skip.
Qed.
Lemma marked_iff : forall l bs, (List.length l = List.length (unmarked bs)) -> (all_marked A eqb l bs = true <-> exists p, Permutation (unmarked bs) p /\ Forall2 R l p).
Proof.
  induction l as [|x l IH]; intros bs L; cbn [all_marked].
  - split; auto. intros _. exists []. split; [|constructor]. destruct (unmarked bs); [apply Permutation_refl|discriminate].
  - destruct (mark A eqb x bs) as [bs'|] eqn:M.
    + destruct (mark_some _ _ _ M) as (y & u & R1 & P1 & P2). assert (L' : List.length l = List.length (unmarked bs')). { apply Permutation_length in P1, P2. cbn in *. lia. }
      rewrite (IH bs' L'). split.
      * intros (p & Q & F). exists (y :: p). split; [rewrite P1; apply perm_skip; now rewrite <- P2|constructor; auto].
      * intros (p & Q & F). inversion F as [|? z ? p0 RZ F0]; subst. rewrite P1 in Q.
        assert (I : In y (z :: p0)) by (rewrite <- Q; now left). destruct I as [->|I].
        -- exists p0. split; auto. rewrite P2. now apply Permutation_cons_inv in Q.
        -- apply in_split in I as (a & b & ->). destruct (forall2_swap _ _ F0 y z (a ++ b)) with (x := x) as (p' & Q1 & Q2); auto; [symmetry; apply Permutation_middle|]. exists p'. split; auto.
           rewrite P2, Q1. apply Permutation_cons_inv with y. rewrite Q. rewrite perm_swap. apply perm_skip. symmetry. apply Permutation_middle.
    + split; [discriminate|]. intros (p & Q & F). inversion F as [|? z ? p0 RZ F0]; subst. exfalso. eapply mark_none; [exact M| |exact RZ]. rewrite Q. now left.
Qed.
Lemma same_list_iff : forall a b, same_list A eqb a b = true <-> exists p, Permutation b p /\ Forall2 R a p.
Proof.
  intros a b. assert (U : unmarked (map (fun x => (x, false)) b) = b) by (unfold unmarked; induction b as [|x b IH]; cbn; [reflexivity|now f_equal]).
  unfold same_list. destruct (Nat.eqb_spec (List.length a) (List.length b)) as [L|L]; cbn [andb].
  - rewrite marked_iff by now rewrite U. now rewrite U.
  - split; [discriminate|]. intros (p & P & F). apply Permutation_length in P. apply f2_len in F. congruence.
Qed.
End Match.

Lemma val_eqb_iff : forall k a b, val_eqb k a b = true <-> match k with DLimit => val_eq (period a) (period b) | _ => val_eq a b end.
Proof.
  assert (G : forall a b, match a, b with None, None => true | Some (VName n), Some (VName m) => nm_equals n m | Some (VNum n), Some (VNum m) => n =? m
    | Some (VStr s), Some (VStr t) => bytes_eqb s t | Some (VTime y), Some (VTime z) => (y =? z)%Z | _, _ => false end = true <-> val_eq a b).
  { intros [[]|] [[]|]; cbn; try (split; intro H; (discriminate || contradiction || reflexivity || exact Logic.I)).
    - apply nm_equals_iff.
    - rewrite N.eqb_eq. split; congruence.
    - rewrite bytes_eqb_eq. split; congruence.
    - rewrite Z.eqb_eq. split; congruence. }
  intros k a b. unfold val_eqb. destruct k; apply G.
Qed.
Definition row_reported (r : row) (v : option cval) : option cval := match w_kind r with DLimit => period v | _ => v end.
Definition rep (rs : list row) (a : vals) : vals := map (fun x => row_reported (fst x) (snd x)) (combine rs a).
Definition rows_same (rs : list row) (a b : vals) : Prop := List.length a = List.length rs /\ List.length b = List.length rs /\ Forall2 val_eq (rep rs a) (rep rs b).
Lemma rows_eqb_iff : forall rs a b, rows_eqb rs a b = true <-> rows_same rs a b.
Proof.
  unfold rows_same, rep. induction rs as [|r rs IH]; intros [|x a] [|y b]; cbn [rows_eqb combine map List.length]; try (split; [discriminate|intros (X & Y & _); discriminate]); [split; auto|].
  rewrite Bool.andb_true_iff, val_eqb_iff, IH. unfold row_reported at 3 5. cbn [fst snd]. split.
  - intros (X & L1 & L2 & Y). split; [now f_equal|]. split; [now f_equal|]. constructor; auto. destruct (w_kind r); exact X.
  - intros (L1 & L2 & X). injection L1 as L1. injection L2 as L2. inversion X; subst. splits; auto. destruct (w_kind r); assumption.
Qed.
Lemma forall2_eq_sym : forall a b, Forall2 val_eq a b -> Forall2 val_eq b a.
Proof. induction 1; constructor; auto using val_eq_sym. Qed.
Lemma forall2_eq_trans : forall a b c, Forall2 val_eq a b -> Forall2 val_eq b c -> Forall2 val_eq a c.
Proof. intros a b c H. revert c. induction H; intros c H2; inversion H2; subst; constructor; eauto using val_eq_trans. Qed.
Lemma rows_same_swap : forall rs x y x' y', rows_same rs x y -> rows_same rs x' y -> rows_same rs x y' -> rows_same rs x' y'.
Proof.
  intros rs x y x' y' (A1 & A2 & A3) (B1 & B2 & B3) (C1 & C2 & C3). split; [exact B1|]. split; [exact C2|]. eapply forall2_eq_trans; [exact B3|]. eapply forall2_eq_trans; [apply forall2_eq_sym; exact A3|exact C3].
Qed.
Lemma rows_same_sym : forall rs x y, rows_same rs x y <-> rows_same rs y x.
Proof. intros rs x y. unfold rows_same. split; intros (A & B & C); splits; auto using forall2_eq_sym. Qed.
Lemma no_limit : forall rs a, vals_inv rs a -> Forall (fun r => w_kind r <> DLimit) rs -> rep rs a = a.
Proof.
  induction 1 as [|r v rs vs V I IH]; intro F; [reflexivity|]. inversion F; subst. unfold rep in *. cbn [combine map]. rewrite IH by assumption. f_equal. unfold row_reported. cbn [fst snd]. destruct (w_kind r) eqn:K; auto. contradiction.
Qed.
Lemma route_limit : forall a, vals_inv routeRows a -> rep routeRows a = route_reported a.
Proof.
  intros a I. unfold routeRows in *. repeat match goal with H : vals_inv (_ :: _) _ |- _ => inversion H; subst; clear H | H : Forall2 val_inv (_ :: _) _ |- _ => inversion H; subst; clear H | H : Forall2 val_inv [] _ |- _ => inversion H; subst; clear H end.
  cbn. unfold row_reported. cbn. destruct y3; reflexivity.
Qed.
Lemma reported_rows : forall c a, vals_inv (ty_rows (class c)) a -> rep (ty_rows (class c)) a = reported c a.
Proof.
  intros c a I. destruct c; try (apply no_limit; [exact I|cbn; repeat constructor; discriminate]). now apply route_limit.
Qed.
Lemma record_reported_rows : forall c t rs a, ty_sub (class c) = Some (t, rs) -> vals_inv rs a -> rep rs a = record_reported c a.
Proof.
  intros c t rs a E I. destruct c; cbn in E; try discriminate; injection E as <- <-; [apply no_limit; [exact I|cbn; repeat constructor; discriminate]|now apply route_limit].
Qed.

Lemma vals_len : forall rs a, vals_inv rs a -> List.length a = List.length rs.
Proof. induction 1; cbn; auto. Qed.
Lemma same_under : forall rs f a b, (forall x, vals_inv rs x -> rep rs x = f x) -> vals_inv rs a -> vals_inv rs b -> (rows_same rs a b <-> Forall2 val_eq (f a) (f b)).
Proof.
  intros rs f a b F A B. unfold rows_same. rewrite (F a A), (F b B). split; [intros (_ & _ & X); exact X|]. intro X. splits; auto using vals_len.
Qed.
Lemma eqb_iff : forall c a b, obj_inv c a -> obj_inv c b -> (do_eqb (class c) a b = true <-> equal_entry c a b).
Proof.
  intros c a b [A AS] [B BS]. unfold do_eqb, equal_entry. rewrite Bool.andb_true_iff, rows_eqb_iff, (same_under _ (reported c)) by (auto; intros; now apply reported_rows).
  pose proof (records_sub c) as RS. destruct (ty_sub (class c)) as [[t rs]|] eqn:SU; destruct (records c) as [l|]; try contradiction; [|tauto].
  assert (SL : same_list vals (rows_eqb rs) (do_subs a) (do_subs b) = true <-> exists p, Permutation (do_subs b) p /\ Forall2 (rows_same rs) (do_subs a) p).
  { apply same_list_iff; [intros; rewrite rows_eqb_iff; apply rows_same_sym|intros x y x' y' H1 H2 H3; exact (rows_same_swap _ _ _ _ _ H1 H2 H3)]. }
  rewrite SL.
  assert (G : forall p, Permutation (do_subs b) p -> (Forall2 (rows_same rs) (do_subs a) p <-> Forall2 (fun x y => Forall2 val_eq (record_reported c x) (record_reported c y)) (do_subs a) p)).
  { intros p P. assert (PI : Forall (vals_inv rs) p) by (eapply Permutation_Forall; eauto). clear P BS SL. revert p PI. induction AS as [|x l0 X AS IH]; intros p PI; [split; intro H; inversion H; constructor|].
    split; intro H; inversion H; subst; inversion PI; subst; constructor; try (apply IH; assumption); apply (same_under rs (record_reported c)); auto; intros; eapply record_reported_rows; eauto. }
  split; intros [X (p & P & F)]; (split; [exact X|]); exists p; (split; [exact P|]); apply (G p P); exact F.
Qed.

(* ---- errors ---- *)
Lemma nni_err : forall e x, readNNIBlock e = Err x -> x = ETlv.
Proof. intros e x H. unfold readNNIBlock in H. destruct (readNonNegativeInteger _ _) eqn:R; cbn [bind] in H; [discriminate|]. apply readNNI_err in R. congruence. Qed.
Lemma nm_err : forall e x, nm_decode e = Err x -> x = ETlv.
Proof. intros e x H. unfold nm_decode in H. destruct (negb _); [congruence|]. destruct (parseValue (e_val e)) eqn:P; cbn [bind] in H; [discriminate|]. apply parseValue_err in P. congruence. Qed.
Lemma dv_err : forall k e x, dv_decode k e = Err x -> x = ETlv \/ (x = EUb /\ k = DStamp).
Proof.
  intros k e x H. destruct k; cbn [dv_decode] in H; try discriminate;
    try (destruct (readNNIBlock e) eqn:R; cbn [bind] in H; [|left; apply nni_err in R; congruence]; try discriminate).
  - destruct (readNNIBlockAs limit e) eqn:R; cbn [bind] in H; [discriminate|]. apply readNNIAs_err in R. left; congruence.
  - destruct (i64 _) eqn:I; cbn [bind] in H; [discriminate|]. unfold i64 in I. destruct (_ && _); [discriminate|]. right. split; congruence.
  - destruct (nm_decode e) eqn:D; cbn [bind] in H; [discriminate|]. apply nm_err in D. left; congruence.
  - destruct (parseValue (e_val e)) as [[|y es]|] eqn:P; cbn [bind] in H; [left; congruence| |apply parseValue_err in P; left; congruence].
    destruct (nm_decode y) eqn:D; cbn [bind] in H; [discriminate|]. apply nm_err in D. left; congruence.
Qed.
Lemma rows_err : forall rs es x, rows_decode rs es = Err x -> x = ETlv \/ (x = EUb /\ exists r, In r rs /\ w_kind r = DStamp).
Proof.
  induction rs as [|r rs IH]; intros es x H; cbn [rows_decode] in H; [discriminate|].
  assert (G : forall es x, (let! y := rows_decode rs es in Ok (None :: fst y, snd y)) = Err x -> x = ETlv \/ (x = EUb /\ exists r0, In r0 (r :: rs) /\ w_kind r0 = DStamp)).
  { intros es' x' H'. destruct (rows_decode rs es') eqn:D; cbn [bind] in H'; [discriminate|]. injection H' as <-. destruct (IH _ _ D) as [->|(-> & r0 & I & K)]; auto. right. split; auto. exists r0. split; auto. now right. }
  destruct es as [|e es]; [destruct (required r); [left; congruence|eauto]|]. destruct (e_type e =? w_type r); [|destruct (required r); [left; congruence|eauto]].
  destruct (dv_decode (w_kind r) e) eqn:D; cbn [bind] in H.
  - destruct (rows_decode rs es) eqn:D2; cbn [bind] in H; [discriminate|]. injection H as <-. destruct (IH _ _ D2) as [->|(-> & r0 & I & K)]; auto. right. split; auto. exists r0. split; auto. now right.
  - injection H as <-. destruct (dv_err _ _ _ D) as [->|[-> K]]; auto. right. split; auto. exists r. split; auto. now left.
Qed.
Lemma subs_err : forall t rs, (forall r, In r rs -> w_kind r <> DStamp) -> forall es x, subs_decode t rs es = Err x -> x = ETlv.
Proof.
  intros t rs NS. induction es as [|e es IH]; intros x H; cbn [subs_decode] in H; [discriminate|]. destruct (negb _); [congruence|]. destruct (parseValue (e_val e)) eqn:P; cbn [bind] in H; [|apply parseValue_err in P; congruence].
  destruct (rows_decode rs a) eqn:D; cbn [bind] in H.
  - destruct (subs_decode t rs es) eqn:D2; cbn [bind] in H; [discriminate|]. injection H as <-. auto.
  - injection H as <-. destruct (rows_err _ _ _ D) as [->|(-> & r & I & K)]; auto. exfalso. exact (NS _ I K).
Qed.
Lemma ty_err : forall c e x, ty_decode (class c) e = Err x -> x = ETlv \/ (x = EUb /\ c = ForwarderStatus).
Proof.
  intros c e x H. unfold ty_decode in H. destruct (negb _); [left; congruence|]. destruct (parseValue (e_val e)) eqn:P; cbn [bind] in H; [|apply parseValue_err in P; left; congruence].
  destruct (rows_decode _ a) eqn:D; cbn [bind] in H.
  - destruct (ty_sub (class c)) as [[t rs]|] eqn:SU; [|discriminate]. destruct (subs_decode t rs (snd a0)) eqn:D2; cbn [bind] in H; [discriminate|]. injection H as <-. left. eapply subs_err; [|exact D2].
    intros r I. destruct c; cbn in SU; try discriminate; injection SU as <- <-; cbn in I; repeat (destruct I as [<-|I]; [discriminate|]); contradiction.
  - injection H as <-. destruct (rows_err _ _ _ D) as [->|(-> & r & I & K)]; auto. right. split; auto. clear - I K. destruct c; auto; cbn in I; repeat (destruct I as [<-|I]; [discriminate K|]); contradiction.
Qed.

(* ---- dataset payloads ---- *)
Lemma parse_vector_wf : forall ty es fuel, Forall elem_wf es -> (List.length (concat (map e_wire es)) < fuel)%nat ->
  parse_vector fuel ty (concat (map e_wire es)) = (fix go es := match es with [] => Ok [] | e :: es' => let! o := ty_decode ty e in let! l := go es' in Ok (o :: l) end) es.
Proof.
  intros ty. induction es as [|e es IH]; intros fuel W L; (destruct fuel as [|fuel]; [lia|]); [reflexivity|]. inversion W; subst. cbn [map concat] in *. rewrite app_length in L.
  pose proof (elem_wf_wire_len e H1) as LW. assert (LW' : (0 < List.length (e_wire e))%nat) by (unfold nlen in LW; lia).
  cbn [parse_vector]. rewrite fromBuffer_wf by assumption. destruct (e_wire e ++ concat (map e_wire es)) as [|b w] eqn:E; [apply app_eq_nil in E as [E _]; rewrite E in LW'; cbn in LW'; lia|].
  destruct (ty_decode ty e); cbn [bind]; [|reflexivity]. rewrite IH; [reflexivity|assumption|lia].
Qed.
Lemma parse_vector_inv : forall ty fuel w l, parse_vector fuel ty w = Ok l -> exists es, Forall elem_wf es /\ w = concat (map e_wire es) /\ Forall2 (fun o e => ty_decode ty e = Ok o) l es.
Proof.
  intros ty. induction fuel as [|fuel IH]; intros w l H; cbn [parse_vector] in H; [discriminate|]. destruct w as [|b w]; [apply Ok_inj in H as <-; exists []; auto|].
  destruct (fromBuffer (b :: w)) as [[e r]|] eqn:F; [|discriminate]. inv_bind H. inv_bind H. apply Ok_inj in H as <-. destruct (IH _ _ E0) as (es & W & -> & F2). apply fromBuffer_inv in F as [We Fe]. exists (e :: es). splits; auto.
Qed.
Lemma vector_ok : forall ty w l, parseDatasetVector ty w = Ok l <-> exists es, Forall elem_wf es /\ w = concat (map e_wire es) /\ Forall2 (fun o e => ty_decode ty e = Ok o) l es.
Proof.
  intros ty w l. split; [apply parse_vector_inv|]. intros (es & W & -> & F). unfold parseDatasetVector. rewrite parse_vector_wf by (auto; lia). clear W. induction F as [|o e l es D F IH]; [reflexivity|]. rewrite D. cbn [bind]. rewrite IH. reflexivity.
Qed.
Lemma vector_err : forall c fuel w x, (List.length w < fuel)%nat -> parse_vector fuel (class c) w = Err x -> x = ETlv \/ (x = EUb /\ c = ForwarderStatus).
Proof.
  intros c. induction fuel as [|fuel IH]; intros w x L H; [lia|]. cbn [parse_vector] in H. destruct w as [|b w]; [discriminate|]. destruct (fromBuffer (b :: w)) as [[e r]|] eqn:F; [|left; congruence].
  destruct (ty_decode (class c) e) eqn:D; cbn [bind] in H; [|injection H as <-; eapply ty_err; eauto]. destruct (parse_vector fuel (class c) r) eqn:P; cbn [bind] in H; [discriminate|]. injection H as <-. apply (IH r); auto.
  apply fromBuffer_inv in F as [We Fe]. pose proof (elem_wf_wire_len e We) as LW. rewrite Fe in L. rewrite app_length in L. unfold nlen in LW. lia.
Qed.
Lemma vector_heard : forall c w l, parseDatasetVector (class c) w = Ok l -> dataset_heard c l w.
Proof.
  intros c w l H. apply vector_ok in H as (es & W & -> & F). exists (pairs es). split; [apply is_tlv_seq_elems; exists es; auto|]. clear W. induction F as [|o e l es D F IH]; cbn; constructor; auto. cbn. destruct (ty_heard _ _ _ D) as (T & H & _). auto.
Qed.
Lemma vector_accepts : forall c w l, dataset_heard c l w -> exists l', parseDatasetVector (class c) w = Ok l' /\
  Forall2 (fun o' o => Forall2 val_eq (do_vals o') (do_vals o) /\ Forall2 (Forall2 val_eq) (do_subs o') (do_subs o)) l' l.
Proof.
  intros c w l (ps & SQ & F). apply is_tlv_seq_elems in SQ as (es & W & -> & ->).
  assert (G : exists l', Forall2 (fun o e => ty_decode (class c) e = Ok o) l' es /\ Forall2 (fun o' o => Forall2 val_eq (do_vals o') (do_vals o) /\ Forall2 (Forall2 val_eq) (do_subs o') (do_subs o)) l' l).
  { clear W. revert l F. induction es as [|e es IH]; intros l F; cbn in F; inversion F as [|o ? l0 ? H1 H2]; subst; [exists []; auto|]. destruct (IH _ H2) as (l' & A & B). cbn in H1. destruct H1 as [T HE]. destruct (ty_accepts c e _ _ T HE) as (o' & D & V1 & V2). exists (o' :: l'). split; constructor; auto. }
  destruct G as (l' & A & B). exists l'. split; auto. apply vector_ok. eauto.
Qed.
