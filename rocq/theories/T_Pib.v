(* C70: the PIB answers as documented over every history of calls. *)
From Verif Require Import Base BaseLemmas M_Tlv M_Str M_Name S_Name M_Ims P_Ims M_Pib S_Pib P_Pib P_PibR P_PibK P_PibS.
From Coq Require Import String.
Open Scope list_scope.
Open Scope N_scope.

(* C70 in full: forall l, Forall real_op l -> documented l emptyT (pib_new be_empty).  It is false (see the three theorems below), and holds of every history
   that does not contain one of the three calls described by careful_op. *)
Theorem C70_documented_partial : forall l, Forall real_op l -> careful l emptyT (pib_new be_empty) -> documented l emptyT (pib_new be_empty).
Proof. intros l R C. apply run_documented; auto. apply inv_empty. Qed.
Print Assumptions C70_documented_partial.

(* a history reaches any well-formed store as well: what was stored before is still there after the Pib is opened again (PReopen in l) *)
Definition g (s : string) : key := (8, str s).
Definition ia : nm := [g "a"].
Definition k1 : nm := [g "a"; g "KEY"; g "1"].
Definition k2 : nm := [g "a"; g "KEY"; g "2"].
Definition k3 : nm := [g "a"; g "KEY"; g "3"].
Definition c1 (bits rest : string) : pcert := mkPC (k1 ++ [g "self"; (54, [Byte.x01])]) (str bits) (str rest).
(* a check that is sufficient for careful, to be computed *)
Definition careful_opb (t : tree) (o : pop) : bool :=
  match o with
  | PRemoveKey h kn => match t_hid t h with Some i => match t_defK t i with Some k => is k kn | None => true end | None => true end
  | PSetDefCert k c => match t_hkey t k with Some kn => match t_key t kn with Some b => if list_eq_dec byte_dec b (pc_bits c) then true else false | None => false end | None => true end
  | PAddCert k c => match t_hkey t k with Some kn => negb (isopt (t_defC t kn) (pc_name c)) | None => true end
  | _ => true
  end.
Fixpoint carefulb (l : list pop) (t : tree) (p : pib) : bool :=
  match l with [] => true | o :: l' => careful_opb t o && (let (t1, r) := sem o t in let (p', a) := pb_step o p in carefulb l' (noted t1 r a) p') end.
Lemma is_eq : forall a b, is a b = true -> a = b.
Proof. intros a b. unfold is. destruct (nm_dec a b); congruence. Qed.
Lemma is_same : forall a, is a a = true.
Proof. intros a. unfold is. destruct (nm_dec a a); congruence. Qed.
Lemma carefulb_ok : forall l t p, carefulb l t p = true -> careful l t p.
Proof.
  induction l as [|o l IH]; intros t p H; cbn [careful carefulb] in *; [exact Logic.I|].
  apply andb_prop in H. destruct H as [A B]. split.
  - destruct o; try exact Logic.I; cbn [careful_op careful_opb] in *.
    + intros i E _. rewrite E in A. destruct (t_defK t i); auto. apply is_eq in A. subst. auto.
    + intros kn' c' E1 _ E2 _. rewrite E1, E2 in A. cbn [isopt] in A. rewrite is_same in A. discriminate.
    + intros kn' E1 _. rewrite E1 in A. destruct (t_key t kn') as [b|]; [|discriminate].
      destruct (list_eq_dec byte_dec b (pc_bits c)); [subst; reflexivity|discriminate].
  - destruct (sem o t) as [t1 r], (pb_step o p) as [p' a]. auto.
Qed.
Example C70_ex :
  let l := [PAddId ia; PAddKey 0 (str "B1") k1; PAddKey 0 (str "B2") k2; PAddCert 1 (c1 "B1" "x"); PGetDefCert 1; PSetDefKey 0 k2; PGetDefKey 0; PReopen; PGetDefId; PGetDefKey 3;
            PRemoveKey 3 k2; PGetDefKey 3; PKeyNames 3; PRemoveId ia; PGetId ia] in
  Forall real_op l /\ careful l emptyT (pib_new be_empty) /\
  snd (pb_step PGetDefId (pb_run (firstn 8 l) (pib_new be_empty))) = Ok (AId 3) /\
  snd (pb_step (PGetDefKey 3) (pb_run (firstn 9 l) (pib_new be_empty))) = Ok (AKey 4) /\
  snd (pb_step (PKeyNames 3) (pb_run (firstn 12 l) (pib_new be_empty))) = Ok (ANames [k1]).
Proof.
  cbv zeta. split; [repeat constructor; vm_compute; discriminate|]. split; [apply carefulb_ok; vm_compute; reflexivity|].
  split; [vm_compute; reflexivity|]. split; vm_compute; reflexivity.
Qed.

(* the documented state after a history *)
Fixpoint told (l : list pop) (t : tree) (p : pib) : tree :=
  match l with [] => t | o :: l' => let (t1, r) := sem o t in let (p', a) := pb_step o p in told l' (noted t1 r a) p' end.
(* Removing a key that is not the default one: the identity has lost its default key although it was not removed. *)
Theorem C70_removeKey_refuted : exists l h k, Forall real_op l /\
  snd (sem (PGetDefKey h) (told l emptyT (pib_new be_empty))) = RKey k /\ snd (pb_step (PGetDefKey h) (pb_run l (pib_new be_empty))) = Err ERuntime.
Proof.
  exists [PAddId ia; PAddKey 0 (str "B1") k1; PAddKey 0 (str "B2") k2; PRemoveKey 0 k2], 0, k1. split; [repeat constructor|]. split; vm_compute; reflexivity.
Qed.
Print Assumptions C70_removeKey_refuted.
(* And after that, the default key that is remembered and the one that is stored differ: an assertion fails. *)
Theorem C70_removeKey_asserts_refuted : exists l h k, Forall real_op l /\
  snd (sem (PGetDefKey h) (told l emptyT (pib_new be_empty))) = RKey k /\ snd (pb_step (PGetDefKey h) (pb_run l (pib_new be_empty))) = Err EAssert.
Proof.
  exists [PAddId ia; PAddKey 0 (str "B1") k1; PGetDefKey 0; PAddKey 0 (str "B2") k2; PRemoveKey 0 k2; PAddKey 0 (str "B3") k3], 0, k1. split; [repeat constructor|]. split; vm_compute; reflexivity.
Qed.
Print Assumptions C70_removeKey_asserts_refuted.
(* Making a default of a certificate of another public key replaces the stored public key. *)
Theorem C70_setDefaultCertificate_refuted : exists l h k b b', Forall real_op l /\ b <> b' /\
  snd (sem (PKeyInfo h) (told l emptyT (pib_new be_empty))) = RAns (AInfo k b) /\ snd (pb_step (PKeyInfo h) (pb_run l (pib_new be_empty))) = Ok (AInfo k b').
Proof.
  exists [PAddId ia; PAddKey 0 (str "B1") k1; PSetDefCert 1 (c1 "B2" "x"); PReopen; PGetId ia; PGetKey 2 k1], 3, k1, (str "B1"), (str "B2").
  split; [repeat constructor; vm_compute; discriminate|]. split; [discriminate|]. split; vm_compute; reflexivity.
Qed.
Print Assumptions C70_setDefaultCertificate_refuted.
(* Replacing the default certificate by another one of the same name: the old one is still answered. *)
Theorem C70_addCertificate_refuted : exists l h c c', Forall real_op l /\ c <> c' /\
  snd (sem (PGetDefCert h) (told l emptyT (pib_new be_empty))) = RAns (ACert c) /\ snd (pb_step (PGetDefCert h) (pb_run l (pib_new be_empty))) = Ok (ACert c').
Proof.
  exists [PAddId ia; PAddKey 0 (str "B1") k1; PAddCert 1 (c1 "B1" "x"); PGetDefCert 1; PAddCert 1 (c1 "B1" "y")], 1, (c1 "B1" "y"), (c1 "B1" "x").
  split; [repeat constructor; vm_compute; discriminate|]. split; [discriminate|]. split; vm_compute; reflexivity.
Qed.
Print Assumptions C70_addCertificate_refuted.
(* the histories above are refused by the specification as a whole *)
Lemma documented_last : forall l o t p, documented (l ++ [o]) t p -> fits (fst (sem o (told l t p))) (snd (sem o (told l t p))) (snd (pb_step o (pb_run l p))).
Proof.
  induction l as [|x l IH]; intros o t p; cbn [app documented told pb_run].
  - destruct (sem o t) as [t1 r], (pb_step o p) as [p' a]. cbn. tauto.
  - destruct (sem x t) as [t1 r], (pb_step x p) as [p' a]. cbn [fst]. intros [_ H]. auto.
Qed.
Theorem C70_refuted : exists l, Forall real_op l /\ ~ documented l emptyT (pib_new be_empty).
Proof.
  destruct C70_removeKey_refuted as (l & h & k & A & B & C). exists (l ++ [PGetDefKey h]). split; [apply Forall_app; split; auto; repeat constructor|].
  intros D. apply documented_last in D. rewrite B, C in D. exact D.
Qed.
Print Assumptions C70_refuted.
