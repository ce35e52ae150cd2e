(* Proofs about Controller. *)
From Coq Require Import Lia ZifyBool ZifyNat ZifyN ZArith.
From Verif Require Import Base BaseLemmas M_Tlv S_Tlv P_Tlv P_Block M_Str M_Name S_Name P_Name P_Packet P_Data M_Control S_Control P_Control P_IntPolicy M_NfdData S_NfdData P_NfdData3 P_NfdData4 M_Controller S_Controller T_Control.
Open Scope N_scope.
Open Scope list_scope.

(* ---- commands ---- *)
Definition cids (s : ctl) : list nat := map (fun x => fst (fst x)) (ct_pending s) ++ map (fun x => fst (fst (fst x))) (ct_validating s).
Record invC (s : ctl) (O : list cout) : Prop := {
  c_nodup : NoDup (cids s);
  c_low : forall id, In id (cids s) -> (id < ct_next s)%nat;
  c_pend : forall id c k, In (id, c, k) (ct_pending s) -> In (OSend id c k) O /\ forall ct, ~ In (OValidate id ct) O;
  c_val : forall id c k ct, In (id, c, k, ct) (ct_validating s) -> In (OSend id c k) O /\ In (OValidate id ct) O;
  c_once : forall id, (length (reports id O) <= 1)%nat;
  c_none : forall id, In id (cids s) -> reports id O = [];
  c_rlow : forall id, reports id O <> [] -> (id < ct_next s)%nat;
  c_slow : forall id c k, In (OSend id c k) O -> (id < ct_next s)%nat;
  c_suniq : forall id c k c' k', In (OSend id c k) O -> In (OSend id c' k') O -> c = c' /\ k = k';
  c_vlow : forall id ct, In (OValidate id ct) O -> (id < ct_next s)%nat;
  c_vuniq : forall id ct ct', In (OValidate id ct) O -> In (OValidate id ct') O -> ct = ct';
  c_all : forall id c k, In (OSend id c k) O -> cb_success k = true -> cb_failure k = true -> In OUb O \/ In id (cids s) \/ reports id O <> []
}.
Lemma reports_app : forall id a b, reports id (a ++ b) = reports id a ++ reports id b.
Proof. intros. unfold reports. now rewrite flat_map_app. Qed.
Lemma dreports_app : forall id a b, dreports id (a ++ b) = dreports id a ++ dreports id b.
Proof. intros. unfold dreports. now rewrite flat_map_app. Qed.
(* outputs that do not concern commands *)
Definition plain (x : cout) : Prop := match x with OSend _ _ _ | OValidate _ _ | OReport _ _ => False | _ => True end.
Lemma reports_plain : forall id o, Forall plain o -> reports id o = [].
Proof. intros id o F. induction F as [|x o P F IH]; [reflexivity|]. cbn. destruct x; cbn in *; try contradiction; exact IH. Qed.
Lemma in_plain : forall o x, Forall plain o -> In x o -> plain x.
Proof. intros o x F I. rewrite Forall_forall in F. auto. Qed.
Lemma invC_plain : forall s s' O o, invC s O -> Forall plain o -> ct_pending s' = ct_pending s -> ct_validating s' = ct_validating s -> (ct_next s <= ct_next s')%nat -> invC s' (O ++ o).
Proof.
  intros s s' O o [A1 A2 A3 A4 A5 A6 A7 A8 A9 A10 A11 A12] P E1 E2 L. assert (C : cids s' = cids s) by (unfold cids; now rewrite E1, E2).
  assert (R : forall id, reports id (O ++ o) = reports id O) by (intro; rewrite reports_app, (reports_plain _ o P); apply app_nil_r).
  assert (IS : forall id c k, In (OSend id c k) (O ++ o) -> In (OSend id c k) O) by (intros id c k I; apply in_app_iff in I as [I|I]; auto; apply in_plain in I; auto; contradiction).
  assert (IV : forall id ct, In (OValidate id ct) (O ++ o) -> In (OValidate id ct) O) by (intros id ct I; apply in_app_iff in I as [I|I]; auto; apply in_plain in I; auto; contradiction).
  constructor; rewrite ?C, ?E1, ?E2; auto.
  - intros id I. specialize (A2 id I). lia.
  - intros id c k I. destruct (A3 id c k I) as [X Y]. split; [apply in_app_iff; auto|]. intros ct Q. apply IV in Q. eapply Y; eauto.
  - intros id c k ct I. destruct (A4 id c k ct I). split; apply in_app_iff; auto.
  - intro id. now rewrite R.
  - intros id I. rewrite R. auto.
  - intros id. rewrite R. intro Q. specialize (A7 id Q). lia.
  - intros id c k I. apply IS in I. specialize (A8 _ _ _ I). lia.
  - intros id c k c' k' I J. apply IS in I, J. eauto.
  - intros id ct I. apply IV in I. specialize (A10 _ _ I). lia.
  - intros id ct ct' I J. apply IV in I, J. eauto.
  - intros id c k I S1 S2. apply IS in I. rewrite R. destruct (A12 id c k I S1 S2) as [Q|Q]; [left; apply in_app_iff; auto|auto].
Qed.
Lemma act_invC : forall a s O s' o, invC s O -> ct_act a s = (s', o) -> invC s' (O ++ o).
Proof.
  intros a s O s' o I H. unfold ct_act in H. destruct (negb (ct_alive s)); [injection H as <- <-; apply (invC_plain s); auto|].
  destruct a as [c k [|]|k|].
  - injection H as <- <-. destruct I as [A1 A2 A3 A4 A5 A6 A7 A8 A9 A10 A11 A12].
    assert (C : cids (mkCtl true ((ct_next s, c, k) :: ct_pending s) (ct_validating s) (ct_running s) (ct_set s) (S (ct_next s))) = ct_next s :: cids s) by reflexivity.
    assert (R : forall id, reports id (O ++ [OSend (ct_next s) c k]) = reports id O) by (intro; rewrite reports_app; apply app_nil_r).
    assert (IS : forall id c0 k0, In (OSend id c0 k0) (O ++ [OSend (ct_next s) c k]) -> In (OSend id c0 k0) O \/ (id, c0, k0) = (ct_next s, c, k)).
    { intros id c0 k0 I. apply in_app_iff in I as [I|[I|[]]]; auto. right. congruence. }
    assert (IV : forall id ct, In (OValidate id ct) (O ++ [OSend (ct_next s) c k]) -> In (OValidate id ct) O) by (intros id ct I; apply in_app_iff in I as [I|[I|[]]]; auto; discriminate).
    constructor; rewrite ?C; cbn [ct_pending ct_validating ct_next].
    + constructor; auto. intro Q. apply A2 in Q. lia.
    + intros id [<-|Q]; [lia|]. apply A2 in Q. lia.
    + intros id c0 k0 [Q|Q].
      * injection Q as <- <- <-. split; [apply in_app_iff; right; now left|]. intros ct V. apply IV, A10 in V. lia.
      * destruct (A3 _ _ _ Q) as [X Y]. split; [apply in_app_iff; auto|]. intros ct V. apply IV in V. eapply Y; eauto.
    + intros id c0 k0 ct Q. destruct (A4 _ _ _ _ Q). split; apply in_app_iff; auto.
    + intro id. now rewrite R.
    + intros id [<-|Q]; rewrite R; auto. destruct (reports (ct_next s) O) eqn:Z; auto. exfalso. assert (ct_next s < ct_next s)%nat; [|lia]. apply A7. congruence.
    + intros id. rewrite R. intro Q. specialize (A7 id Q). lia.
    + intros id c0 k0 Q. apply IS in Q as [Q|Q]; [apply A8 in Q; lia|injection Q as -> _ _; lia].
    + intros id c0 k0 c1 k1 Q1 Q2. apply IS in Q1 as [Q1|Q1], Q2 as [Q2|Q2]; eauto.
      * injection Q2 as -> _ _. apply A8 in Q1. lia.
      * injection Q1 as -> _ _. apply A8 in Q2. lia.
      * split; congruence.
    + intros id ct Q. apply IV, A10 in Q. lia.
    + intros id ct ct' Q1 Q2. apply IV in Q1, Q2. eauto.
    + intros id c0 k0 Q S1 S2. rewrite R. apply IS in Q as [Q|Q].
      * destruct (A12 _ _ _ Q S1 S2) as [Z|[Z|Z]]; [left; apply in_app_iff; auto|right; left; now right|auto].
      * right. left. left. congruence.
  - injection H as <- <-. apply (invC_plain s); auto.
  - injection H as <- <-. apply (invC_plain s); auto; [|cbn; lia]. constructor; [exact Logic.I|constructor].
  - injection H as <- <-. apply (invC_plain s); auto.
Qed.
Lemma acts_invC : forall l s O s' o, invC s O -> ct_acts l s = (s', o) -> invC s' (O ++ o).
Proof.
  induction l as [|a l IH]; intros s O s' o I H; cbn [ct_acts] in H; [injection H as <- <-; now rewrite app_nil_r|].
  destruct (ct_act a s) as [s1 o1] eqn:E1. destruct (ct_acts l s1) as [s2 o2] eqn:E2. injection H as <- <-. rewrite app_assoc. eapply IH; [|exact E2]. eapply act_invC; eauto.
Qed.
Lemma find_id : forall A (f : A -> nat) l x id, find (fun x => Nat.eqb (f x) id) l = Some x -> In x l /\ f x = id.
Proof. intros A f l x id H. apply find_some in H as [I E]. apply Nat.eqb_eq in E. auto. Qed.
(* a command ends: it is no longer in the lists, and is reported if the callback is there *)
Lemma end_invC : forall s s' O id o, invC s O -> In id (cids s) -> (forall x, In x (ct_pending s') -> In x (ct_pending s) /\ fst (fst x) <> id) ->
  (forall x, In x (ct_validating s') -> In x (ct_validating s) /\ fst (fst (fst x)) <> id) ->
  (forall i, In i (cids s) -> i <> id -> In i (cids s')) -> NoDup (cids s') -> ct_next s' = ct_next s ->
  (exists r, o = [OReport id r]) \/ (o = [] /\ forall c k, In (OSend id c k) O -> cb_success k = false \/ cb_failure k = false) \/ o = [OUb] -> invC s' (O ++ o).
Proof.
  intros s s' O id o [A1 A2 A3 A4 A5 A6 A7 A8 A9 A10 A11 A12] Iid P1 P2 P3 ND L Ho.
  assert (CI : forall i, In i (cids s') -> In i (cids s) /\ i <> id).
  { intros i Q. unfold cids in Q. apply in_app_iff in Q as [Q|Q]; apply in_map_iff in Q as (x & <- & Q).
    - apply P1 in Q as [Q N]. split; auto. unfold cids. apply in_app_iff. left. apply in_map_iff. eauto.
    - apply P2 in Q as [Q N]. split; auto. unfold cids. apply in_app_iff. right. apply in_map_iff. eauto. }
  assert (IS : forall i c k, In (OSend i c k) (O ++ o) -> In (OSend i c k) O).
  { intros i c k Q. apply in_app_iff in Q as [Q|Q]; auto. destruct Ho as [(r & ->)|[[-> _]| ->]]; [destruct Q as [Q|[]]; discriminate|destruct Q|destruct Q as [Q|[]]; discriminate]. }
  assert (IV : forall i ct, In (OValidate i ct) (O ++ o) -> In (OValidate i ct) O).
  { intros i ct Q. apply in_app_iff in Q as [Q|Q]; auto. destruct Ho as [(r & ->)|[[-> _]| ->]]; [destruct Q as [Q|[]]; discriminate|destruct Q|destruct Q as [Q|[]]; discriminate]. }
  assert (RN : forall i, i <> id -> reports i (O ++ o) = reports i O).
  { intros i N. rewrite reports_app. destruct Ho as [(r & ->)|[[-> _]| ->]]; cbn; rewrite ?app_nil_r; auto. destruct (Nat.eqb_spec id i); [congruence|]. apply app_nil_r. }
  assert (R1 : (length (reports id (O ++ o)) <= 1)%nat).
  { rewrite reports_app, (A6 id Iid). destruct Ho as [(r & ->)|[[-> _]| ->]]; cbn; rewrite ?Nat.eqb_refl; cbn; lia. }
  constructor; rewrite ?L; auto.
  - intros i Q. now apply A2, CI.
  - intros i c k Q. apply P1 in Q as [Q N]. destruct (A3 _ _ _ Q) as [X Y]. split; [apply in_app_iff; auto|]. intros ct V. apply IV in V. eapply Y; eauto.
  - intros i c k ct Q. apply P2 in Q as [Q N]. destruct (A4 _ _ _ _ Q). split; apply in_app_iff; auto.
  - intro i. destruct (Nat.eq_dec i id) as [->|N]; [exact R1|]. now rewrite RN.
  - intros i Q. apply CI in Q as [Q N]. rewrite RN by exact N. auto.
  - intros i Q. destruct (Nat.eq_dec i id) as [->|N]; [now apply A2|]. rewrite RN in Q by exact N. auto.
  - intros i c k Q. apply IS in Q. eauto.
  - intros i c k c' k' Q1 Q2. apply IS in Q1, Q2. eauto.
  - intros i ct Q. apply IV in Q. eauto.
  - intros i ct ct' Q1 Q2. apply IV in Q1, Q2. eauto.
  - intros i c k Q S1 S2. apply IS in Q. destruct (Nat.eq_dec i id) as [->|N].
    + destruct Ho as [(r & ->)|[[-> F]| ->]].
      * right. right. rewrite reports_app. cbn. rewrite Nat.eqb_refl. destruct (reports id O); discriminate.
      * destruct (F c k Q); congruence.
      * left. apply in_app_iff. right. now left.
    + destruct (A12 _ _ _ Q S1 S2) as [Z|[Z|Z]]; [left; apply in_app_iff; auto|right; left; auto|right; right; rewrite RN by exact N; exact Z].
Qed.
Lemma nodup_app : forall T (a b : list T), NoDup (a ++ b) <-> NoDup a /\ NoDup b /\ forall x, In x a -> ~ In x b.
Proof.
  induction a as [|x a IH]; intro b; cbn.
  - split; [intro H; splits; auto; constructor|tauto].
  - rewrite !NoDup_cons_iff, IH, in_app_iff. split.
    + intros (N & A & B & C). splits; auto. intros y [<-|Y]; [tauto|auto].
    + intros ((N & A) & B & C). splits; auto. intros [Q|Q]; [tauto|]. apply (C x); auto.
Qed.
Lemma nodup_filter : forall A B (f : A -> B) p l, NoDup (map f l) -> NoDup (map f (filter p l)).
Proof.
  intros A B f p. induction l as [|x l IH]; intro H; [constructor|]. cbn in *. apply NoDup_cons_iff in H as [N H]. destruct (p x); auto. cbn. constructor; auto.
  intro Q. apply N. apply in_map_iff in Q as (y & E & I). apply filter_In in I as [I _]. apply in_map_iff. eauto.
Qed.
Lemma drop_ids : forall id s, NoDup (cids s) -> In id (map (fun x => fst (fst x)) (ct_pending s)) ->
  let s' := drop_pending id s in
  (forall x, In x (ct_pending s') -> In x (ct_pending s) /\ fst (fst x) <> id) /\ (forall x, In x (ct_validating s') -> In x (ct_validating s) /\ fst (fst (fst x)) <> id) /\
  (forall i, In i (cids s) -> i <> id -> In i (cids s')) /\ NoDup (cids s').
Proof.
  intros id s ND I s'. unfold s', drop_pending, cids in *. cbn [ct_pending ct_validating]. apply nodup_app in ND as (N1 & N2 & N3).
  assert (F : forall x, In x (filter (fun x : nat * command * cbs => negb (is_id id (fst x))) (ct_pending s)) -> In x (ct_pending s) /\ fst (fst x) <> id).
  { intros x Q. apply filter_In in Q as [Q E]. split; auto. unfold is_id in E. destruct (Nat.eqb_spec (fst (fst x)) id); [discriminate|auto]. }
  splits; auto.
  - intros x Q. split; auto. intro E. apply (N3 id I). apply in_map_iff. eauto.
  - intros i Q N. apply in_app_iff in Q as [Q|Q]; apply in_app_iff; [left|right; exact Q]. apply in_map_iff in Q as (x & <- & Q). apply in_map_iff. exists x. split; auto.
    apply filter_In. split; auto. unfold is_id. destruct (Nat.eqb_spec (fst (fst x)) id); [contradiction|reflexivity].
  - apply nodup_app. splits; auto; [now apply nodup_filter|]. intros x Q. apply N3. apply in_map_iff in Q as (y & <- & Q). apply F in Q as [Q _]. apply in_map_iff. eauto.
Qed.
Lemma valid_ids : forall id s, NoDup (cids s) -> In id (map (fun x => fst (fst (fst x))) (ct_validating s)) ->
  let s' := mkCtl (ct_alive s) (ct_pending s) (filter (fun x => negb (is_id id (fst (fst x)))) (ct_validating s)) (ct_running s) (ct_set s) (ct_next s) in
  (forall x, In x (ct_pending s') -> In x (ct_pending s) /\ fst (fst x) <> id) /\ (forall x, In x (ct_validating s') -> In x (ct_validating s) /\ fst (fst (fst x)) <> id) /\
  (forall i, In i (cids s) -> i <> id -> In i (cids s')) /\ NoDup (cids s').
Proof.
  intros id s ND I s'. unfold s', cids in *. cbn [ct_pending ct_validating]. apply nodup_app in ND as (N1 & N2 & N3).
  assert (F : forall x, In x (filter (fun x : nat * command * cbs * elem => negb (is_id id (fst (fst x)))) (ct_validating s)) -> In x (ct_validating s) /\ fst (fst (fst x)) <> id).
  { intros x Q. apply filter_In in Q as [Q E]. split; auto. unfold is_id in E. destruct (Nat.eqb_spec (fst (fst (fst x))) id); [discriminate|auto]. }
  splits; auto.
  - intros x Q. split; auto. intro E. apply (N3 id); auto. apply in_map_iff. eauto.
  - intros i Q N. apply in_app_iff in Q as [Q|Q]; apply in_app_iff; [left; exact Q|right]. apply in_map_iff in Q as (x & <- & Q). apply in_map_iff. exists x. split; auto.
    apply filter_In. split; auto. unfold is_id. destruct (Nat.eqb_spec (fst (fst (fst x))) id); [contradiction|reflexivity].
  - apply nodup_app. splits; auto; [now apply nodup_filter|]. intros x Q1 Q2. apply (N3 x Q1). apply in_map_iff in Q2 as (y & <- & Q). apply F in Q as [Q _]. apply in_map_iff. eauto.
Qed.


(* ---- the response ---- *)
Lemma cv_err : forall f e x, cv_decode f e = Err x -> x = ETlv.
Proof.
  intros f e x H. unfold cv_decode in H.
  destruct (cf_kind f); try discriminate.
  all: match type of H with bind ?m _ = _ => destruct m eqn:E; cbn [bind] in H end.
  all: try discriminate; try (first [apply nm_err in E|apply nni_err in E|apply readNNIAs_err in E|apply parseValue_err in E]; congruence).
  destruct a as [|y es]; [congruence|]. destruct (nm_decode y) eqn:N; cbn [bind] in H; [discriminate|]. apply nm_err in N. congruence.
Qed.
Lemma cp_loop_err : forall es p x, cp_loop es p = Err x -> x = ETlv.
Proof.
  induction es as [|e es IH]; intros p x H; cbn [cp_loop] in H; [discriminate|]. destruct (field_of_type (e_type e)); [|eauto]. destruct (cv_decode c e) eqn:E; cbn [bind] in H; [eauto|]. apply cv_err in E. congruence.
Qed.
Lemma cp_err : forall e x, cp_decode e = Err x -> x = ETlv.
Proof. intros e x H. unfold cp_decode in H. destruct (negb _); [congruence|]. destruct (parseValue (e_val e)) eqn:P; cbn [bind] in H; [eapply cp_loop_err; eauto|]. apply parseValue_err in P. congruence. Qed.

Lemma blockFromValue_err : forall e x, blockFromValue e = Err x -> x = ETlv.
Proof.
  intros e x H. unfold blockFromValue in H. destruct (N.eqb_spec (nlen (e_val e)) 0) as [|N0]; [congruence|]. destruct (blockFromWire_err _ _ H) as [|X]; [auto|subst x].
  unfold blockFromWire in H. destruct (e_val e) as [|b i]; [now elim N0|].
  destruct (readTypeX (b :: i)) as [[t r1]|x] eqn:T; cbn [bind] in H; [|apply readTypeX_err in T; congruence].
  destruct (readVarNumberX r1) as [[l r2]|x] eqn:V; cbn [bind] in H; [|apply readVarX_err in V; congruence].
  destruct (negb _); congruence.
Qed.
Lemma blockFromValue_iff : forall e x, blockFromValue e = Ok x <-> blockFromWire (e_val e) = Ok x.
Proof. intros e x. unfold blockFromValue. destruct (e_val e) as [|b i]; [split; discriminate|]. destruct (N.eqb_spec (nlen (b :: i)) 0) as [E|]; [|tauto]. cbn in E. unfold nlen in E. cbn in E. lia. Qed.
Lemma responds_iff : forall content r, responds content r <-> (let! b := blockFromValue content in cr_decode b) = Ok r.
Proof.
  intros content r. unfold responds. split.
  - intros (e & E & D). apply blockFromValue_iff in E. now rewrite E.
  - intro H. destruct (blockFromValue content) as [e|] eqn:E; cbn [bind] in H; [|discriminate]. exists e. split; auto. now apply blockFromValue_iff.
Qed.
Lemma responds_fun : forall content r r', responds content r -> responds content r' -> r = r'.
Proof. intros content r r' A B. apply responds_iff in A, B. congruence. Qed.
Lemma succeeds_fun : forall c r p p', succeeds c r p -> succeeds c r p' -> p = p'.
Proof. intros c r p p' (_ & b & B & D & _) (_ & b' & B' & D' & _). congruence. Qed.
Lemma response_cases : forall c content,
  (exists r p, responds content r /\ succeeds c r p /\ ct_response c content = CSuccess p) \/
  (exists r, responds content r /\ 400 <= cr_code r /\ ct_response c content = CFail (cr_code r) (Some r)) \/
  ((forall r, responds content r -> cr_code r < 400 /\ forall p, ~ succeeds c r p) /\ ct_response c content = CFail 500 None).
Proof.
  intros c content. unfold ct_response. destruct (let! b := blockFromValue content in cr_decode b) as [r|x] eqn:D.
  - assert (R : responds content r) by now apply responds_iff. change ERROR_LBOUND with 400. destruct (N.leb_spec 400 (cr_code r)) as [L|L]; [right; left; exists r; auto|].
    destruct (cr_body r) as [b|] eqn:B.
    + destruct (cp_decode b) as [p|x] eqn:P.
      * destruct (cp_decode_ok _ _ P) as [OK _]. destruct (C60_response c p OK) as [V1 V2]. destruct (cmd_validateResponse c p) as [x|] eqn:V.
        -- right. right. rewrite (V2 x eq_refl). split; [|reflexivity]. intros r' R'. rewrite <- (responds_fun _ _ _ R R'). split; auto. intros q (_ & b' & B' & P' & PR). rewrite B in B'. injection B' as <-. rewrite P in P'. injection P' as <-. apply V1 in PR. discriminate.
        -- left. exists r, p. splits; auto. split; auto. exists b. splits; auto. now apply V1.
      * right. right. rewrite (cp_err _ _ P). split; [|reflexivity]. intros r' R'. rewrite <- (responds_fun _ _ _ R R'). split; auto. intros q (_ & b' & B' & P' & PR). congruence.
    + right. right. split; [|reflexivity]. intros r' R'. rewrite <- (responds_fun _ _ _ R R'). split; auto. intros q (_ & b' & B' & P' & PR). congruence.
  - right. right. assert (x = ETlv) as ->. { destruct (blockFromValue content) as [b|y] eqn:B; cbn [bind] in D; [eapply cr_err; eauto|]. apply blockFromValue_err in B. congruence. }
    split; [|reflexivity]. intros r R. apply responds_iff in R. congruence.
Qed.
Lemma response_no_throw : forall c content x, ct_response c content <> CThrow x.
Proof. intros c content x H. destruct (response_cases c content) as [(r & p & _ & _ & E)|[(r & _ & _ & E)|[_ E]]]; congruence. Qed.

(* ---- the steps, for commands ---- *)
Lemma move_invC : forall s O id c k ct, invC s O -> In (id, c, k) (ct_pending s) -> let s1 := drop_pending id s in
  invC (mkCtl (ct_alive s1) (ct_pending s1) ((id, c, k, ct) :: ct_validating s1) (ct_running s1) (ct_set s1) (ct_next s1)) (O ++ [OValidate id ct]).
Proof.
  intros s O id c k ct [A1 A2 A3 A4 A5 A6 A7 A8 A9 A10 A11 A12] Ip s1.
  assert (Im : In id (map (fun x : nat * command * cbs => fst (fst x)) (ct_pending s))) by (apply in_map_iff; exists (id, c, k); auto).
  assert (Ic : In id (cids s)) by (unfold cids; apply in_app_iff; auto).
  destruct (drop_ids id s A1 Im) as (D1 & D2 & D3 & D4). fold s1 in D1, D2, D3, D4.
  set (s2 := mkCtl _ _ _ _ _ _). assert (C : cids s2 = map (fun x => fst (fst x)) (ct_pending s1) ++ id :: map (fun x => fst (fst (fst x))) (ct_validating s1)) by reflexivity.
  assert (CI : forall i, In i (cids s2) -> In i (cids s)).
  { intros i Q. rewrite C in Q. apply in_app_iff in Q as [Q|[<-|Q]]; auto; unfold cids; apply in_app_iff; [left|right]; apply in_map_iff in Q as (x & <- & Q); apply in_map_iff; exists x; (split; [reflexivity|]); [now apply (D1 x)|now apply (D2 x)]. }
  assert (R : forall i, reports i (O ++ [OValidate id ct]) = reports i O) by (intro; rewrite reports_app; apply app_nil_r).
  assert (IS : forall i c k, In (OSend i c k) (O ++ [OValidate id ct]) -> In (OSend i c k) O) by (intros i c0 k0 Q; apply in_app_iff in Q as [Q|[Q|[]]]; auto; discriminate).
  assert (IV : forall i ct', In (OValidate i ct') (O ++ [OValidate id ct]) -> In (OValidate i ct') O \/ i = id /\ ct' = ct).
  { intros i ct' Q. apply in_app_iff in Q as [Q|[Q|[]]]; auto. right. split; congruence. }
  destruct (A3 _ _ _ Ip) as [S1 V1].
  constructor.
  - rewrite C. apply (proj2 (NoDup_Add (Add_app id (map (fun x => fst (fst x)) (ct_pending s1)) (map (fun x => fst (fst (fst x))) (ct_validating s1))))). split; [exact D4|]. intro Q. unfold cids in Q. apply in_app_iff in Q as [Q|Q]; apply in_map_iff in Q as (x & E & Q); [now apply (D1 x)|now apply (D2 x)].
  - intros i Q. apply CI in Q. exact (A2 _ Q).
  - intros i c0 k0 Q. apply D1 in Q as [Q N]. destruct (A3 _ _ _ Q) as [X Y]. split; [apply in_app_iff; auto|]. intros ct' V. apply IV in V as [V|[V _]]; [eapply Y; eauto|cbn in N; congruence].
  - intros i c0 k0 ct0 [Q|Q]; [injection Q as <- <- <- <-; split; apply in_app_iff; [auto|right; now left]|]. apply D2 in Q as [Q N]. destruct (A4 _ _ _ _ Q). split; apply in_app_iff; auto.
  - intro i. now rewrite R.
  - intros i Q. rewrite R. auto.
  - intros i. rewrite R. apply A7.
  - intros i c0 k0 Q. apply IS in Q. exact (A8 _ _ _ Q).
  - intros i c0 k0 c1 k1 Q1 Q2. apply IS in Q1, Q2. eauto.
  - intros i ct' Q. apply IV in Q as [Q|[-> _]]; [exact (A10 _ _ Q)|exact (A2 _ Ic)].
  - intros i ct1 ct2 Q1 Q2. apply IV in Q1 as [Q1|[-> ->]], Q2 as [Q2|[E ->]]; subst; eauto; exfalso; eapply V1; eauto.
  - intros i c0 k0 Q B1 B2. apply IS in Q. rewrite R. destruct (A12 _ _ _ Q B1 B2) as [Z|[Z|Z]]; [left; apply in_app_iff; auto| |auto].
    right. left. rewrite C. destruct (Nat.eq_dec i id) as [->|N]; [apply in_app_iff; right; now left|]. specialize (D3 i Z N). unfold cids in D3. apply in_app_iff in D3 as [D|D]; apply in_app_iff; [auto|right; now right].
Qed.
Lemma act_quiet : forall a s s' o x, ct_act a s = (s', o) -> In x o -> match x with OSend _ _ _ | OFetch _ _ => True | _ => False end.
Proof.
  intros a s s' o x H I. unfold ct_act in H. destruct (negb (ct_alive s)); [injection H as <- <-; destruct I|]. destruct a as [c k [|]|k|]; injection H as <- <-; cbn in I; try contradiction; destruct I as [<-|[]]; exact Logic.I.
Qed.
Lemma acts_quiet : forall l s s' o x, ct_acts l s = (s', o) -> In x o -> match x with OSend _ _ _ | OFetch _ _ => True | _ => False end.
Proof.
  induction l as [|a l IH]; intros s s' o x H I; cbn [ct_acts] in H; [injection H as <- <-; destruct I|]. destruct (ct_act a s) as [s1 o1] eqn:E1. destruct (ct_acts l s1) as [s2 o2] eqn:E2. injection H as <- <-.
  apply in_app_iff in I as [I|I]; [eapply act_quiet; eauto|eapply IH; eauto].
Qed.
Lemma report_invC : forall s s1 O id c k r acts s2 o, invC s O -> In (OSend id c k) O -> In id (cids s) ->
  (forall x, In x (ct_pending s1) -> In x (ct_pending s) /\ fst (fst x) <> id) -> (forall x, In x (ct_validating s1) -> In x (ct_validating s) /\ fst (fst (fst x)) <> id) ->
  (forall i, In i (cids s) -> i <> id -> In i (cids s1)) -> NoDup (cids s1) -> ct_next s1 = ct_next s ->
  ct_report id k r acts s1 = (s2, o) -> invC s2 (O ++ o).
Proof.
  intros s s1 O id c k r acts s2 o IV IS Ii D1 D2 D3 D4 L H.
  assert (E1 : forall o, (exists r, o = [OReport id r]) \/ (o = [] /\ forall c k, In (OSend id c k) O -> cb_success k = false \/ cb_failure k = false) \/ o = [OUb] -> invC s1 (O ++ o)) by (intros o' Ho; exact (end_invC s s1 O id o' IV Ii D1 D2 D3 D4 L Ho)).
  assert (E2 : forall b, (b = false -> cb_success k = false \/ cb_failure k = false) -> ct_call b (OReport id r) acts s1 = (s2, o) -> invC s2 (O ++ o)).
  { intros b Hb Q. unfold ct_call in Q. destruct b.
    - destruct (ct_acts acts s1) as [s3 o3] eqn:A. injection Q as <- <-. change (OReport id r :: o3) with ([OReport id r] ++ o3). rewrite app_assoc. eapply acts_invC; [|exact A]. apply E1. eauto.
    - injection Q as <- <-. apply E1. right. left. split; auto. intros c' k' Q. destruct (c_suniq s O IV _ _ _ _ _ IS Q) as [_ <-]. auto. }
  unfold ct_report in H. destruct r; [apply (E2 _ (fun X => or_introl X) H)|apply (E2 _ (fun X => or_intror X) H)|]. injection H as <- <-. apply E1. eauto.
Qed.
Lemma erase_fields : forall id s s' o, ct_erase id s = (s', o) -> ct_pending s' = ct_pending s /\ ct_validating s' = ct_validating s /\ ct_next s' = ct_next s /\ Forall plain o.
Proof. intros id s s' o H. unfold ct_erase in H. injection H as <- <-. splits; auto. destruct (ct_alive s); repeat constructor. Qed.
Lemma emit_invC : forall s O id b x acts t s' o, invC s O -> plain x -> ct_emit id b x acts t s = (s', o) -> invC s' (O ++ o).
Proof.
  intros s O id b x acts t s' o IV P H. unfold ct_emit in H. destruct (ct_call b x acts s) as [s1 o1] eqn:C.
  assert (I1 : invC s1 (O ++ o1)).
  { unfold ct_call in C. destruct b; [|injection C as <- <-; now rewrite app_nil_r]. destruct (ct_acts acts s) as [s3 o3] eqn:A. injection C as <- <-. change (x :: o3) with ([x] ++ o3). rewrite app_assoc. eapply acts_invC; [|exact A].
    apply (invC_plain s); auto. }
  destruct (b && t); [injection H as <- <-; exact I1|]. destruct (ct_erase id s1) as [s2 o2] eqn:E. injection H as <- <-. destruct (erase_fields _ _ _ _ E) as (F1 & F2 & F3 & F4). rewrite app_assoc. apply (invC_plain s1); auto. lia.
Qed.
Lemma find_pending : forall id (l : list (nat * command * cbs)) i c k, find (fun x => is_id id (fst x)) l = Some (i, c, k) -> i = id /\ In (id, c, k) l.
Proof. intros id l i c k H. apply find_some in H as [I E]. unfold is_id in E. cbn in E. apply Nat.eqb_eq in E as ->. auto. Qed.
Lemma find_validating : forall id (l : list (nat * command * cbs * elem)) i c k ct, find (fun x => is_id id (fst (fst x))) l = Some (i, c, k, ct) -> i = id /\ In (id, c, k, ct) l.
Proof. intros id l i c k ct H. apply find_some in H as [I E]. unfold is_id in E. cbn in E. apply Nat.eqb_eq in E as ->. auto. Qed.
Lemma find_running : forall id (l : list (nat * cbs)) i k, find (is_id id) l = Some (i, k) -> i = id /\ In (id, k) l.
Proof. intros id l i k H. apply find_some in H as [I E]. unfold is_id in E. cbn in E. apply Nat.eqb_eq in E as ->. auto. Qed.
Lemma in_pend_cids : forall s id c k, In (id, c, k) (ct_pending s) -> In id (map (fun x : nat * command * cbs => fst (fst x)) (ct_pending s)).
Proof. intros. apply in_map_iff. exists (id, c, k). auto. Qed.
Lemma in_val_cids : forall s id c k ct, In (id, c, k, ct) (ct_validating s) -> In id (map (fun x : nat * command * cbs * elem => fst (fst (fst x))) (ct_validating s)).
Proof. intros. apply in_map_iff. exists (id, c, k, ct). auto. Qed.
Lemma step_invC : forall e s O s' o, invC s O -> ct_step e s = (s', o) -> invC s' (O ++ o).
Proof.
  intros e s O s' o IV H. assert (NOP : invC s (O ++ [])) by (now rewrite app_nil_r).
  assert (PEND : forall id c k r acts, In (id, c, k) (ct_pending s) -> ct_report id k r acts (drop_pending id s) = (s', o) -> invC s' (O ++ o)).
  { intros id c k r acts I R. pose proof (in_pend_cids _ _ _ _ I) as J. destruct (drop_ids id s (c_nodup _ _ IV) J) as (D1 & D2 & D3 & D4).
    eapply (report_invC s (drop_pending id s) O id c k); eauto; [now apply (c_pend _ _ IV) in I|unfold cids; apply in_app_iff; auto]. }
  destruct e as [a|id ct|id acts t|id acts t|id ok acts t|id ps acts t|id code acts t]; cbn [ct_step] in H.
  - eapply act_invC; eauto.
  - destruct (find _ (ct_pending s)) as [[[i c] k]|] eqn:F; [|injection H as <- <-; exact NOP]. apply find_pending in F as [-> F]. destruct (ct_alive s) eqn:AL.
    + injection H as <- <-. pose proof (move_invC s O id c k ct IV F) as M. cbn in M. unfold drop_pending in M. cbn in M. rewrite AL in M. cbn. rewrite AL. exact M.
    + injection H as <- <-. pose proof (in_pend_cids _ _ _ _ F) as J. destruct (drop_ids id s (c_nodup _ _ IV) J) as (D1 & D2 & D3 & D4).
      eapply (end_invC s (drop_pending id s) O id); eauto. unfold cids. apply in_app_iff. auto.
  - destruct (find _ (ct_pending s)) as [[[i c] k]|] eqn:F; [|injection H as <- <-; exact NOP]. apply find_pending in F as [-> F]. eauto.
  - destruct (find _ (ct_pending s)) as [[[i c] k]|] eqn:F; [|injection H as <- <-; exact NOP]. apply find_pending in F as [-> F]. eauto.
  - destruct (find _ (ct_validating s)) as [[[[i c] k] ct]|] eqn:F; [|injection H as <- <-; exact NOP]. apply find_validating in F as [-> F].
    pose proof (in_val_cids _ _ _ _ _ F) as J. destruct (valid_ids id s (c_nodup _ _ IV) J) as (D1 & D2 & D3 & D4).
    eapply (report_invC s _ O id c k); [exact IV|now apply (c_val _ _ IV) in F|unfold cids; apply in_app_iff; auto|exact D1|exact D2|exact D3|exact D4|reflexivity|exact H].
  - destruct (find _ (ct_running s)) as [[i k]|] eqn:F; [|injection H as <- <-; exact NOP]. destruct ps; (eapply emit_invC; [exact IV| |exact H]; exact Logic.I).
  - destruct (find _ (ct_running s)) as [[i k]|] eqn:F; [|injection H as <- <-; exact NOP]. destruct (ct_errorCode code); (eapply emit_invC; [exact IV| |exact H]; exact Logic.I).
Qed.
Lemma invC_new : invC ct_new [].
Proof. constructor; cbn; try tauto; try (intros; contradiction); try (intros; lia). constructor. Qed.
Lemma run_invC : forall l s O s' h, invC s O -> ct_run l s = (s', h) -> invC s' (O ++ outs h).
Proof.
  induction l as [|e l IH]; intros s O s' h IV H; cbn [ct_run] in H; [injection H as <- <-; cbn; now rewrite app_nil_r|].
  destruct (ct_step e s) as [s1 o] eqn:E. destruct (ct_run l s1) as [s2 h2] eqn:R. injection H as <- <-. cbn [outs flat_map snd]. rewrite app_assoc. eapply IH; [|exact R]. eapply step_invC; eauto.
Qed.
Lemma run_split : forall l s s' h h1 e o h2, ct_run l s = (s', h) -> h = h1 ++ (e, o) :: h2 -> exists l1 l2 s1 s2, l = l1 ++ e :: l2 /\ ct_run l1 s = (s1, h1) /\ ct_step e s1 = (s2, o) /\ ct_run l2 s2 = (s', h2).
Proof.
  induction l as [|x l IH]; intros s s' h h1 e o h2 H E; cbn [ct_run] in H; [injection H as <- <-; destruct h1; discriminate|].
  destruct (ct_step x s) as [s1 o1] eqn:S1. destruct (ct_run l s1) as [s2 h3] eqn:R. injection H as <- <-. destruct h1 as [|y h1].
  - injection E as -> -> <-. exists [], l, s, s1. splits; auto.
  - injection E as <- E. destruct (IH _ _ _ _ _ _ _ R E) as (l1 & l2 & t1 & t2 & -> & R1 & S2 & R2). exists (x :: l1), l2, t1, t2. splits; auto. cbn [ct_run]. rewrite S1, R1. reflexivity.
Qed.
