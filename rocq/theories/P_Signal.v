From Coq Require Import List Lia ZifyBool ZifyNat ZifyN.
From Verif Require Import Base BaseLemmas M_Signal S_Signal.
Import ListNotations.
Open Scope N_scope.

Definition ids (l : list slot) : list N := map sl_id l.
Definition dead (x : slot) : slot := mkSlot (sl_id x) (sl_single x) false.
Definition mk_slots (l : list (N * bool)) : list slot := map (fun p => mkSlot (fst p) (snd p) true) l.
Definition bthrows (l : list act) : bool := existsb (fun a => match a with AThrow => true | _ => false end) l.
Lemma bthrows_iff : forall l, bthrows l = true <-> throws l.
Proof. intro l. unfold bthrows, throws. rewrite existsb_exists. split; [intros (x & H & E); destruct x; try discriminate; exact H|]. intro H. exists AThrow. auto. Qed.
Lemma done_all : forall l, bthrows l = false -> done l = l.
Proof. induction l as [|[] l IH]; cbn [bthrows existsb done]; intro H; try (rewrite IH; auto); [reflexivity|discriminate]. Qed.

Lemma numbered_app : forall a b n, numbered n (a ++ b) = numbered n a ++ numbered (n + N.of_nat (length a)) b.
Proof. induction a as [|x a IH]; intros b n; cbn [app numbered length]; [rewrite N.add_0_r; reflexivity|]. rewrite IH. do 3 f_equal. lia. Qed.
Lemma numbered_ids : forall l n x, In x (ids (mk_slots (numbered n l))) -> n <= x < n + N.of_nat (length l).
Proof.
  induction l as [|b l IH]; intros n x H; [elim H|]. cbn [numbered mk_slots map ids] in H. destruct H as [<-|H]; cbn [sl_id fst length]; [lia|]. apply IH in H. lia.
Qed.
Lemma numbered_nodup : forall l n, NoDup (ids (mk_slots (numbered n l))).
Proof.
  induction l as [|b l IH]; intro n; [constructor|]. cbn [numbered mk_slots map ids]. constructor; [|apply IH]. cbn [sl_id fst]. intro H. apply numbered_ids in H. lia.
Qed.
Lemma ids_app : forall a b, ids (a ++ b) = ids a ++ ids b.
Proof. intros. apply map_app. Qed.

Lemma isConn_in : forall c s, isConnected c s = true <-> exists x, In x (sg_slots s) /\ sl_id x = c /\ sl_live x = true.
Proof. intros c s. unfold isConnected. rewrite existsb_exists. split; intros (x & H & E); exists x; [|destruct E as [E1 E2]; rewrite E2; split; auto; lia]. apply andb_prop in E. destruct E. splits; auto. lia. Qed.
Lemma erase_out : forall c l, ~ In c (ids l) -> erase c l = l.
Proof.
  induction l as [|x l IH]; intro H; [reflexivity|]. cbn [erase filter]. cbn [ids map] in H. destruct (N.eqb_spec (sl_id x) c) as [E|E]; cbn [negb]; [elim H; left; exact E|]. f_equal. apply IH. intro I. apply H. right. exact I.
Qed.
Lemma erase_mid : forall A x B, NoDup (ids (A ++ x :: B)) -> erase (sl_id x) (A ++ x :: B) = A ++ B.
Proof.
  intros A x B H. unfold erase. rewrite filter_app. cbn [filter]. rewrite N.eqb_refl. cbn [negb].
  rewrite ids_app in H. cbn [ids map] in H. pose proof (NoDup_remove_2 _ _ _ H) as K. rewrite in_app_iff in K.
  pose proof (erase_out (sl_id x) A ltac:(tauto)) as E1. pose proof (erase_out (sl_id x) B ltac:(tauto)) as E2. unfold erase in E1, E2. congruence.
Qed.
Lemma kill_mid : forall A x B, NoDup (ids (A ++ x :: B)) -> map (fun y => if sl_id y =? sl_id x then mkSlot (sl_id y) (sl_single y) false else y) (A ++ x :: B) = A ++ dead x :: B.
Proof.
  intros A x B H. rewrite ids_app in H. cbn [ids map] in H. pose proof (NoDup_remove_2 _ _ _ H) as K. rewrite in_app_iff in K.
  assert (E : forall l, ~ In (sl_id x) (ids l) -> map (fun y => if sl_id y =? sl_id x then mkSlot (sl_id y) (sl_single y) false else y) l = l).
  { induction l as [|y l IH]; intro N; [reflexivity|]. cbn [map]. cbn [ids map] in N. destruct (N.eqb_spec (sl_id y) (sl_id x)); [elim N; left; assumption|]. f_equal. apply IH. intro I. apply N. right. exact I. }
  rewrite map_app. cbn [map]. rewrite N.eqb_refl. rewrite !E by tauto. reflexivity.
Qed.
Lemma next_mid : forall A x B, NoDup (ids (A ++ x :: B)) -> next_of (sl_id x) (A ++ x :: B) = match B with y :: _ => Some y | [] => None end.
Proof.
  induction A as [|a A IH]; intros x B H; cbn [app next_of].
  - rewrite N.eqb_refl. reflexivity.
  - cbn [app ids map] in H. inversion H as [|? ? N1 N2]; subst. destruct (N.eqb_spec (sl_id a) (sl_id x)) as [E|E]; [|apply IH; exact N2].
    elim N1. rewrite E. change (In (sl_id x) (ids (A ++ x :: B))). rewrite ids_app. apply in_or_app. right. left. reflexivity.
Qed.
Definition wf_ids (l : list slot) (n : N) : Prop := NoDup (ids l) /\ Forall (fun c => c < n) (ids l).
Lemma nodup_app : forall (a b : list N), NoDup a -> NoDup b -> (forall x, In x a -> In x b -> False) -> NoDup (a ++ b).
Proof.
  induction a as [|x a IH]; intros b A B D; [exact B|]. inversion A; subst. cbn [app]. constructor.
  - rewrite in_app_iff. intros [I|I]; [contradiction|]. apply (D x); [left; reflexivity|exact I].
  - apply IH; auto. intros y Y1 Y2. apply (D y); [right; exact Y1|exact Y2].
Qed.
Lemma wf_more : forall l n js, wf_ids l n -> wf_ids (l ++ mk_slots (numbered n js)) (n + N.of_nat (length js)).
Proof.
  intros l n js [H1 H2]. unfold wf_ids. rewrite ids_app. rewrite Forall_forall in H2. split.
  - apply nodup_app; auto using numbered_nodup. intros x I J. apply H2 in I. apply numbered_ids in J. lia.
  - apply Forall_forall. intros x I. rewrite in_app_iff in I. destruct I as [I|I]; [apply H2 in I; lia|apply numbered_ids in I; lia].
Qed.
Lemma wf_ids_same : forall l l' n, ids l = ids l' -> wf_ids l n -> wf_ids l' n.
Proof. intros l l' n E H. unfold wf_ids in *. rewrite <- E. exact H. Qed.
Lemma ids_mid : forall A x y B, sl_id x = sl_id y -> ids (A ++ x :: B) = ids (A ++ y :: B).
Proof. intros. rewrite !ids_app. cbn [ids map]. congruence. Qed.
Lemma wf_drop : forall A x B n, wf_ids (A ++ x :: B) n -> wf_ids (A ++ B) n.
Proof.
  intros A x B n [H1 H2]. unfold wf_ids in *. rewrite ids_app in *. cbn [ids map] in *. split; [eapply NoDup_remove_1; eassumption|].
  rewrite Forall_app in *. destruct H2 as [H2 H3]. inversion H3; auto.
Qed.

(* the current slot is x, which may or may not be live any more *)
Definition at_slot (A : list slot) (x : slot) (B : list slot) (s : sig) : Prop :=
  sg_slots s = A ++ x :: B /\ sg_exec s = true /\ wf_ids (A ++ x :: B) (sg_next s).
Lemma disc_self : forall A x B s, at_slot A x B s -> sl_live x = true -> sg_cur s = Some (sl_id x) ->
  sg_disconnect (sl_id x) s = Ok (mkSig (A ++ dead x :: B) (sg_next s) true None).
Proof.
  intros A x B s (E & X & W) L C. unfold sg_disconnect.
  replace (isConnected (sl_id x) s) with true by (symmetry; apply isConn_in; exists x; rewrite E; splits; auto; apply in_or_app; right; left; reflexivity).
  rewrite X, C, N.eqb_refl, E, kill_mid by apply W. reflexivity.
Qed.
Lemma disc_dead : forall A x B s, at_slot A x B s -> sl_live x = false -> sg_disconnect (sl_id x) s = Ok s.
Proof.
  intros A x B s (E & X & W) L. unfold sg_disconnect. destruct (isConnected (sl_id x) s) eqn:Q; [|reflexivity].
  apply isConn_in in Q. destruct Q as (y & I & Y & LY). exfalso. rewrite E in I. destruct W as [W _]. rewrite ids_app in W. cbn [ids map] in W. apply NoDup_remove_2 in W.
  rewrite in_app_iff in I, W. destruct I as [I|[I|I]]; [|congruence|]; apply W; [left|right]; rewrite <- Y; apply in_map; exact I.
Qed.
Lemma disc_other : forall A x B s c s1, at_slot A x B s -> sg_cur s = Some (sl_id x) \/ sg_cur s = None -> c <> sl_id x -> sg_disconnect c s = Ok s1 -> s1 = s.
Proof.
  intros A x B s c s1 (E & X & W) C N H. unfold sg_disconnect in H. rewrite X in H. destruct (isConnected c s); [|congruence].
  destruct C as [C|C]; rewrite C in H; [|discriminate]. destruct (N.eqb_spec c (sl_id x)); [contradiction|discriminate].
Qed.

(* the slot and the cursor after some actions of the handler *)
Definition slot_after (x : slot) (l : list act) : slot := if sl_live x && leaves (sl_id x) l then dead x else x.
Definition cur_after (x : slot) (l : list act) (c : option N) : option N := if sl_live x && leaves (sl_id x) l then None else c.
Lemma slot_after_id : forall x l, sl_id (slot_after x l) = sl_id x.
Proof. intros. unfold slot_after. destruct (_ && _); reflexivity. Qed.
Lemma run_acts_spec : forall l A x B s s1 t, at_slot A x B s -> (sl_live x = true -> sg_cur s = Some (sl_id x)) -> (sg_cur s = Some (sl_id x) \/ sg_cur s = None) ->
  run_acts l s = (s1, Ok t) ->
  t = bthrows l /\ at_slot A (slot_after x (done l)) (B ++ mk_slots (numbered (sg_next s) (joins (done l)))) s1 /\
  sg_next s1 = sg_next s + N.of_nat (length (joins (done l))) /\ sg_cur s1 = cur_after x (done l) (sg_cur s).
Proof.
  induction l as [|a l IH]; intros A x B s s1 t H L C R.
  - injection R as <- <-. unfold slot_after, cur_after. cbn [done leaves existsb joins flat_map numbered mk_slots map length bthrows]. rewrite Bool.andb_false_r, app_nil_r, N.add_0_r. auto.
  - destruct a as [b|c| |]; cbn [run_acts] in R.
    + assert (H' : at_slot A x (B ++ mk_slots [(sg_next s, b)]) (sg_connect b s)).
      { destruct H as (E & X & W). unfold at_slot, sg_connect. cbn [sg_slots sg_exec sg_next]. rewrite E. splits; [rewrite <- app_assoc; reflexivity|exact X|].
        pose proof (wf_more _ _ [b] W) as M. cbn [numbered length] in M. rewrite <- app_assoc in M. exact M. }
      destruct (IH _ _ _ _ _ _ H' L C R) as (T & H1 & N1 & C1). cbn [sg_connect sg_next sg_cur] in *. change (bthrows (AConnect b :: l)) with (bthrows l). cbn [done joins flat_map].
      change (flat_map (fun a => match a with AConnect b0 => [b0] | _ => [] end) (done l)) with (joins (done l)). split; [exact T|]. split; [|split].
      * change (slot_after x (AConnect b :: done l)) with (slot_after x (done l)). cbn [app numbered mk_slots map]. rewrite <- app_assoc in H1. exact H1.
      * rewrite N1. cbn [app length]. lia.
      * exact C1.
    + destruct (sg_disconnect c s) as [s2|] eqn:D; [|discriminate]. change (bthrows (ADisconnect c :: l)) with (bthrows l). cbn [done]. change (joins (ADisconnect c :: done l)) with (joins (done l)).
      destruct (N.eq_dec c (sl_id x)) as [->|NE].
      * destruct (sl_live x) eqn:LX.
        -- rewrite (disc_self _ _ _ _ H LX (L eq_refl)) in D. injection D as <-.
           assert (H' : at_slot A (dead x) B (mkSig (A ++ dead x :: B) (sg_next s) true None)).
           { destruct H as (E & X & W). unfold at_slot. cbn [sg_slots sg_exec sg_next]. splits; auto. eapply wf_ids_same; [|exact W]. apply ids_mid. reflexivity. }
           destruct (IH A (dead x) B _ _ _ H' ltac:(discriminate) ltac:(right; reflexivity) R) as (T & H1 & N1 & C1). cbn [sg_next sg_cur] in *. unfold slot_after, cur_after in *. cbn [dead sl_live sl_id andb] in *.
           rewrite LX. cbn [leaves existsb]. rewrite N.eqb_refl. cbn [orb andb]. auto.
        -- rewrite (disc_dead _ _ _ _ H LX) in D. injection D as <-. destruct (IH A x B _ _ _ H ltac:(congruence) C R) as (T & H1 & N1 & C1). unfold slot_after, cur_after in *. rewrite LX in *. cbn [andb] in *. auto.
      * rewrite (disc_other _ _ _ _ _ _ H C NE D) in *. destruct (IH A x B _ _ _ H L C R) as (T & H1 & N1 & C1).
        unfold slot_after, cur_after in *. cbn [leaves existsb]. destruct (N.eqb_spec c (sl_id x)); [contradiction|]. cbn [orb]. auto.
    + discriminate.
    + injection R as <- <-. unfold slot_after, cur_after. cbn [done leaves existsb joins flat_map numbered mk_slots map length bthrows]. rewrite Bool.andb_false_r, app_nil_r, N.add_0_r. auto.
Qed.
(* a call: does the slot go, and what is it afterwards *)
Definition goes (x : slot) (l : list act) : bool := sl_live x && (leaves (sl_id x) (done l) || (sl_single x && negb (bthrows l))).
Lemma call_spec : forall l A x B s s1 t, at_slot A x B s -> sg_cur s = Some (sl_id x) -> call x l s = (s1, Ok t) ->
  t = bthrows l /\ at_slot A (if goes x l then dead x else x) (B ++ mk_slots (numbered (sg_next s) (joins (done l)))) s1 /\
  sg_next s1 = sg_next s + N.of_nat (length (joins (done l))) /\ sg_cur s1 = (if goes x l then None else Some (sl_id x)).
Proof.
  intros l A x B s s1 t H C R. unfold call in R. destruct (run_acts l s) as [s2 [t2|e]] eqn:Q; [|discriminate].
  destruct (run_acts_spec _ _ _ _ _ _ _ H (fun _ => C) (or_introl C) Q) as (T & H1 & N1 & C1). subst t2. unfold goes, slot_after, cur_after in *. rewrite C in C1.
  destruct (bthrows l) eqn:BT.
  - injection R as <- <-. cbn [negb]. rewrite Bool.andb_false_r, Bool.orb_false_r. auto.
  - destruct (sl_single x) eqn:SX; [|injection R as <- <-; cbn [andb negb]; rewrite Bool.orb_false_r; auto].
    cbn [andb negb]. rewrite Bool.orb_true_r, Bool.andb_true_r.
    destruct (sl_live x) eqn:LX; cbn [andb] in *.
    + destruct (leaves (sl_id x) (done l)).
      * pose proof (disc_dead A (dead x) _ _ H1 eq_refl) as D. cbn [dead sl_id] in D. rewrite D in R. injection R as <- <-. auto.
      * rewrite (disc_self _ _ _ _ H1 LX C1) in R. injection R as <- <-. cbn [sg_next sg_cur]. split; [reflexivity|]. split; [|auto].
        destruct H1 as (E & X & W). unfold at_slot. cbn [sg_slots sg_exec sg_next]. splits; auto. eapply wf_ids_same; [|exact W]. apply ids_mid. reflexivity.
    + rewrite (disc_dead _ _ _ _ H1 LX) in R. injection R as <- <-. auto.
Qed.

Fixpoint stayS (script : nat -> list act) (k : nat) (l : list slot) : list slot :=
  match l with [] => [] | x :: l' => (if goes x (script k) then [] else [x]) ++ stayS script (S k) l' end.
Fixpoint joinedD (script : nat -> list act) (k n : nat) : list bool := match n with O => [] | S n' => joins (done (script k)) ++ joinedD script (S k) n' end.
Lemma last_cons : forall (x : slot) l, List.last (x :: l) x = match l with [] => x | y :: l' => List.last l' y end.
Proof.
  assert (G : forall l (d e : slot), l <> [] -> List.last l d = List.last l e). { induction l as [|a [|b l] IH]; intros d e N; [contradiction|reflexivity|]. cbn [List.last]. apply IH. discriminate. }
  intros x [|y l]; [reflexivity|]. cbn [List.last]. destruct l as [|z l]; [reflexivity|]. apply (G (z :: l)). discriminate.
Qed.
Lemma loop_spec : forall rest f script k it A M s s1 tr t, sg_slots s = A ++ it :: rest ++ M -> wf_ids (A ++ it :: rest ++ M) (sg_next s) -> (length rest < f)%nat ->
  emit_loop f script k it (sl_id (List.last rest it)) s = (s1, tr, Ok t) ->
  (t = false /\ tr = ids (it :: rest) /\ (forall j, (j <= length rest)%nat -> bthrows (script (k + j)%nat) = false) /\
   sg_slots s1 = A ++ stayS script k (it :: rest) ++ M ++ mk_slots (numbered (sg_next s) (joinedD script k (length (it :: rest)))) /\
   sg_next s1 = sg_next s + N.of_nat (length (joinedD script k (length (it :: rest)))) /\ wf_ids (sg_slots s1) (sg_next s1)) \/
  (t = true /\ exists pre x post, it :: rest = pre ++ x :: post /\ tr = ids (pre ++ [x]) /\
   (forall j, (j < length pre)%nat -> bthrows (script (k + j)%nat) = false) /\ bthrows (script (k + length pre)%nat) = true /\
   sg_slots s1 = A ++ stayS script k pre ++ slot_after x (done (script (k + length pre)%nat)) :: post ++ M ++ mk_slots (numbered (sg_next s) (joinedD script k (S (length pre)))) /\
   sg_next s1 = sg_next s + N.of_nat (length (joinedD script k (S (length pre)))) /\ wf_ids (sg_slots s1) (sg_next s1)).
Proof.
  induction rest as [|y rest IH]; intros f script k it A M s s1 tr t E W F R; (destruct f as [|f]; [lia|]); cbn [emit_loop] in R.
  - set (s0 := mkSig (sg_slots s) (sg_next s) true (Some (sl_id it))) in *. assert (A0 : at_slot A it ([] ++ M) s0) by (unfold at_slot; cbn [s0 sg_slots sg_exec sg_next]; auto).
    destruct (call it (script k) _) as [s2 [t2|e]] eqn:C; [|discriminate].
    destruct (call_spec (script k) A it ([] ++ M) s0 _ _ A0 eq_refl C) as (T & (E2 & X2 & W2) & N2 & C2). cbn [s0 sg_next] in N2, E2, W2. subst t2.
    destruct (bthrows (script k)) eqn:BT.
    + injection R as <- <- <-. right. split; [reflexivity|]. exists [], it, []. cbn [app length stayS]. rewrite Nat.add_0_r. splits; auto; try (intros; lia).
      * cbn [joinedD]; rewrite !app_nil_r. rewrite E2. unfold slot_after, goes. rewrite BT. cbn [negb]. rewrite Bool.andb_false_r, Bool.orb_false_r. reflexivity.
      * cbn [joinedD]; rewrite !app_nil_r. exact N2.
      * rewrite E2. exact W2.
    + cbn [List.last] in R. rewrite N.eqb_refl in R. left. rewrite C2 in R.
      assert (J : joinedD script k (length [it]) = joins (done (script k))) by (cbn [length joinedD]; apply app_nil_r). rewrite J.
      destruct (goes it (script k)) eqn:G.
      * injection R as <- <- <-. cbn [sg_slots sg_next]. splits; auto.
        -- intros j Hj. cbn [length] in Hj. replace (k + j)%nat with k by lia. exact BT.
        -- cbn [stayS]. rewrite G. cbn [app]. rewrite E2. change (sl_id it) with (sl_id (dead it)). rewrite erase_mid by apply W2. reflexivity.
        -- rewrite E2. change (sl_id it) with (sl_id (dead it)). rewrite erase_mid by apply W2. eapply wf_drop. exact W2.
      * injection R as <- <- <-. splits; auto.
        -- intros j Hj. cbn [length] in Hj. replace (k + j)%nat with k by lia. exact BT.
        -- cbn [stayS]. rewrite G. cbn [app]. exact E2.
        -- rewrite E2. exact W2.
  - set (s0 := mkSig (sg_slots s) (sg_next s) true (Some (sl_id it))) in *. assert (A0 : at_slot A it ((y :: rest) ++ M) s0) by (unfold at_slot; cbn [s0 sg_slots sg_exec sg_next]; auto).
    destruct (call it (script k) _) as [s2 [t2|e]] eqn:C; [|discriminate].
    destruct (call_spec (script k) A it ((y :: rest) ++ M) s0 _ _ A0 eq_refl C) as (T & (E2 & X2 & W2) & N2 & C2). cbn [s0 sg_next] in N2, E2, W2. subst t2.
    destruct (bthrows (script k)) eqn:BT.
    + injection R as <- <- <-. right. split; [reflexivity|]. exists [], it, (y :: rest). cbn [app length stayS]. rewrite Nat.add_0_r. splits; auto; try (intros; lia).
      * cbn [joinedD]; rewrite !app_nil_r. rewrite E2. unfold slot_after, goes. rewrite BT. cbn [negb]. rewrite Bool.andb_false_r, Bool.orb_false_r. cbn [app]. rewrite <- app_assoc. reflexivity.
      * cbn [joinedD]; rewrite !app_nil_r. exact N2.
      * rewrite E2. exact W2.
    + assert (NL : (sl_id it =? sl_id (List.last (y :: rest) it)) = false).
      { apply N.eqb_neq. intro Q. destruct W as [W _]. rewrite ids_app in W. cbn [ids map] in W. apply NoDup_remove_2 in W. apply W. rewrite in_app_iff. right. rewrite Q. apply in_map. apply in_or_app. left.
        assert (G : forall l (d : slot), l <> [] -> In (List.last l d) l) by (induction l as [|a [|b l] IHl]; intros d N; [contradiction|left; reflexivity|right; apply IHl; discriminate]). apply G. discriminate. }
      rewrite NL in R.
      set (x' := if goes it (script k) then dead it else it) in *.
      assert (IDX : sl_id x' = sl_id it) by (subst x'; destruct (goes it (script k)); reflexivity).
      assert (NX : next_of (sl_id it) (sg_slots s2) = Some y). { rewrite E2, <- IDX. rewrite next_mid by apply W2. reflexivity. }
      rewrite NX in R.
      set (s3 := match sg_cur s2 with None => mkSig (erase (sl_id it) (sg_slots s2)) (sg_next s2) true None | Some _ => s2 end) in *.
      set (A' := A ++ (if goes it (script k) then [] else [it])).
      set (M' := M ++ mk_slots (numbered (sg_next s) (joins (done (script k))))).
      assert (S3 : sg_slots s3 = A' ++ y :: rest ++ M' /\ sg_next s3 = sg_next s2 /\ wf_ids (A' ++ y :: rest ++ M') (sg_next s3)).
      { subst s3 A' M' x'. rewrite C2. cbn [app] in E2, W2. rewrite <- app_assoc in E2, W2. destruct (goes it (script k)).
        - cbn [sg_slots sg_next]. rewrite E2. change (sl_id it) with (sl_id (dead it)). rewrite erase_mid by apply W2. rewrite app_nil_r. splits; auto. eapply wf_drop. exact W2.
        - rewrite <- app_assoc. cbn [app]. splits; auto. }
      destruct S3 as (E3 & N3 & W3).
      destruct (emit_loop f script (S k) y _ s3) as [[s4 tr4] r4] eqn:Q. injection R as <- <- ->.
      assert (LL : List.last (y :: rest) it = List.last rest y).
      { assert (GG : forall l (d e : slot), l <> [] -> List.last l d = List.last l e). { induction l as [|a [|b l] IH']; intros d e N; [contradiction|reflexivity|]. cbn [List.last]. apply IH'. discriminate. }
        destruct rest as [|z rest]; [reflexivity|]. change (List.last (y :: z :: rest) it) with (List.last (z :: rest) it). apply GG. discriminate. }
      rewrite LL in Q. cbn [length] in F.
      destruct (IH f script (S k) y A' M' s3 s4 tr4 t E3 W3 ltac:(lia) Q) as [(T & TR & BTs & SL & NX' & WF)|(T & pre & x & post & EQ & TR & BTs & BX & SL & NX' & WF)].
      * left. split; [exact T|]. split; [rewrite TR; reflexivity|]. split.
        { intros [|j] Hj; [rewrite Nat.add_0_r; exact BT|]. replace (k + S j)%nat with (S k + j)%nat by lia. apply BTs. cbn [length] in Hj. lia. }
        assert (J : joinedD script k (length (it :: y :: rest)) = joins (done (script k)) ++ joinedD script (S k) (length (y :: rest))) by reflexivity.
        split; [|split; [rewrite NX', N3, N2, J, app_length; lia|exact WF]].
        rewrite SL, J, numbered_app, N3, N2. subst A' M'. change (stayS script k (it :: y :: rest)) with ((if goes it (script k) then [] else [it]) ++ stayS script (S k) (y :: rest)).
        unfold mk_slots. rewrite map_app. rewrite <- !app_assoc. reflexivity.
      * right. split; [exact T|]. exists (it :: pre), x, post. split; [rewrite EQ; reflexivity|]. split; [rewrite TR; reflexivity|]. split.
        { intros [|j] Hj; [rewrite Nat.add_0_r; exact BT|]. replace (k + S j)%nat with (S k + j)%nat by lia. apply BTs. cbn [length] in Hj. lia. }
        replace (k + length (it :: pre))%nat with (S k + length pre)%nat by (cbn [length]; lia). split; [exact BX|].
        assert (J : joinedD script k (S (length (it :: pre))) = joins (done (script k)) ++ joinedD script (S k) (S (length pre))) by reflexivity.
        split; [|split; [rewrite NX', N3, N2, J, app_length; lia|exact WF]].
        rewrite SL, J, numbered_app, N3, N2. subst A' M'. change (stayS script k (it :: pre)) with ((if goes it (script k) then [] else [it]) ++ stayS script (S k) pre).
        unfold mk_slots. rewrite map_app. rewrite <- !app_assoc. reflexivity.
Qed.

(* ---- emission ---- *)
Definition inv (s : sig) : Prop := sg_exec s = false /\ wf_ids (sg_slots s) (sg_next s).
Lemma emit_spec : forall script s s1 tr t, inv s -> sg_emit script s = (s1, tr, Ok t) -> inv s1 /\
  ((t = false /\ tr = ids (sg_slots s) /\ (forall j, (j < length (sg_slots s))%nat -> bthrows (script j) = false) /\
    sg_slots s1 = stayS script 0 (sg_slots s) ++ mk_slots (numbered (sg_next s) (joinedD script 0 (length (sg_slots s)))) /\
    sg_next s1 = sg_next s + N.of_nat (length (joinedD script 0 (length (sg_slots s))))) \/
   (t = true /\ exists pre x post, sg_slots s = pre ++ x :: post /\ tr = ids (pre ++ [x]) /\
    (forall j, (j < length pre)%nat -> bthrows (script j) = false) /\ bthrows (script (length pre)) = true /\
    sg_slots s1 = stayS script 0 pre ++ slot_after x (done (script (length pre))) :: post ++ mk_slots (numbered (sg_next s) (joinedD script 0 (S (length pre)))))).
Proof.
  intros script s s1 tr t [X W] R. unfold sg_emit in R. rewrite X in R. destruct (sg_slots s) as [|x l] eqn:E.
  - injection R as <- <- <-. split; [split; [exact X|rewrite E; exact W]|]. left. cbn. rewrite E, N.add_0_r. splits; auto. intros; lia.
  - destruct (emit_loop _ _ _ _ _ _) as [[s2 tr2] r2] eqn:Q. injection R as <- <- ->.
    destruct (loop_spec l (S (length l)) script 0%nat x [] [] s s2 tr2 t ltac:(rewrite app_nil_r; exact E) ltac:(rewrite app_nil_r; exact W) ltac:(lia) Q)
      as [(T & TR & BT & SL & NX & WF)|(T & pre & y & post & EQ & TR & BT & BX & SL & NX & WF)].
    + split; [split; [reflexivity|exact WF]|]. left. cbn [sg_slots sg_next]. splits; auto. intros j Hj. apply (BT j). cbn [length] in Hj. lia.
    + split; [split; [reflexivity|exact WF]|]. right. split; [exact T|]. exists pre, y, post. cbn [sg_slots sg_next]. splits; auto.
Qed.
Lemma step_inv : forall o s s1 c t, inv s -> s_step o s = (s1, c, Ok t) -> inv s1.
Proof.
  intros [b|d|f] s s1 c t H R; cbn [s_step] in R.
  - injection R as <- <- <-. destruct H as [X W]. split; [exact X|]. cbn [sg_connect sg_slots sg_next]. apply (wf_more _ _ [b] W).
  - destruct (sg_disconnect d s) as [s2|] eqn:Q; [|discriminate]. injection R as <- <- <-. destruct H as [X W]. unfold sg_disconnect in Q. rewrite X in Q. destruct (isConnected d s); injection Q as <-; [|split; assumption].
    split; [reflexivity|]. cbn [sg_slots sg_next]. unfold wf_ids, erase. clear - W. destruct W as [W1 W2]. split.
    + induction (sg_slots s) as [|x l IH]; [constructor|]. cbn [ids map] in *. inversion W1; subst. inversion W2; subst. cbn [filter]. destruct (negb _); [|apply IH; assumption].
      cbn [ids map]. constructor; [|apply IH; assumption]. intro I. apply H1. apply in_map_iff in I. destruct I as (y & E & I). apply filter_In in I. rewrite <- E. apply in_map. tauto.
    + rewrite Forall_forall in *. intros y I. apply W2. apply in_map_iff in I. destruct I as (z & E & I). apply filter_In in I. rewrite <- E. apply in_map. tauto.
  - apply (emit_spec f s s1 c t H R).
Qed.
Definition went_ok (p : list N * res bool) : Prop := exists t, snd p = Ok t.
Lemma run_inv : forall l s s1 cs, inv s -> s_run l s = (s1, cs) -> Forall went_ok cs -> inv s1.
Proof.
  induction l as [|o l IH]; intros s s1 cs H R F; cbn [s_run] in R; [injection R as <- <-; exact H|].
  destruct (s_step o s) as [[s2 c] r] eqn:Q. destruct (s_run l s2) as [s3 cs3] eqn:Q2. injection R as <- <-. inversion F as [|? ? [t T] F']; subst. cbn [snd] in T. subst r.
  eapply IH; [eapply step_inv; eassumption|exact Q2|exact F'].
Qed.
Lemma inv_new : inv sg_new.
Proof. split; [reflexivity|]. split; constructor. Qed.

(* ---- refinement ---- *)
Definition refines (a : asig) (s : sig) : Prop := sg_slots s = mk_slots (a_conns a) /\ sg_next s = a_next a /\ inv s.
Lemma stay_refine : forall f l k, (forall j, (j < length l)%nat -> bthrows (f (k + j)%nat) = false) -> stayS f k (mk_slots l) = mk_slots (stay f k l).
Proof.
  intros f. induction l as [|[c b] l IH]; intros k H; [reflexivity|]. cbn [mk_slots map stayS stay]. change (map (fun p : N * bool => mkSlot (fst p) (snd p) true) l) with (mk_slots l).
  rewrite IH by (intros j Hj; replace (S k + j)%nat with (k + S j)%nat by lia; apply H; cbn [length]; lia).
  pose proof (H 0%nat ltac:(cbn [length]; lia)) as B. rewrite Nat.add_0_r in B. unfold goes. cbn [sl_live sl_id sl_single fst snd andb]. rewrite (done_all _ B), B. cbn [negb]. rewrite Bool.andb_true_r, Bool.orb_comm.
  unfold mk_slots. rewrite map_app. destruct (b || _); reflexivity.
Qed.
Lemma joined_refine : forall f n k, (forall j, (j < n)%nat -> bthrows (f (k + j)%nat) = false) -> joinedD f k n = joined f k n.
Proof.
  intro f. induction n as [|n IH]; intros k H; [reflexivity|]. cbn [joinedD joined]. rewrite IH by (intros j Hj; replace (S k + j)%nat with (k + S j)%nat by lia; apply H; lia).
  pose proof (H 0%nat ltac:(lia)) as B. rewrite Nat.add_0_r in B. rewrite (done_all _ B). reflexivity.
Qed.
Lemma mk_ids : forall l, ids (mk_slots l) = map fst l.
Proof. intro l. unfold ids, mk_slots. rewrite map_map. reflexivity. Qed.
Lemma refines_conn : forall a s c, refines a s -> isConnected c s = true <-> In c (map fst (a_conns a)).
Proof.
  intros a s c (E & _ & _). rewrite isConn_in, E. rewrite in_map_iff. unfold mk_slots. split.
  - intros (x & I & X & _). apply in_map_iff in I. destruct I as (p & <- & I). exists p. auto.
  - intros (p & <- & I). exists (mkSlot (fst p) (snd p) true). splits; auto. apply in_map_iff. eauto.
Qed.
Lemma step_refine : forall o a s s1 c, refines a s -> s_step o s = (s1, c, Ok false) -> refines (fst (a_step o a)) s1 /\ c = snd (a_step o a).
Proof.
  intros o a s s1 c H R. pose proof (step_inv o s s1 c false (proj2 (proj2 H)) R) as I1. destruct H as (E & NX & I). destruct o as [b|d|f]; cbn [s_step] in R.
  - injection R as <- <-. cbn [a_step fst snd]. split; [|reflexivity]. unfold refines. splits; auto; cbn [sg_connect sg_slots sg_next a_conns a_next]; [|lia]. rewrite E, NX. unfold mk_slots. rewrite map_app. reflexivity.
  - destruct (sg_disconnect d s) as [s2|] eqn:Q; [|discriminate]. injection R as <- <-. cbn [a_step fst snd]. split; [|reflexivity].
    assert (F : forall l, erase d (mk_slots l) = mk_slots (filter (fun x => negb (fst x =? d)) l)).
    { induction l as [|p l IHl]; [reflexivity|]. cbn [mk_slots map erase filter sl_id]. destruct (fst p =? d); cbn [negb]; [exact IHl|]. cbn [mk_slots map]. f_equal. exact IHl. }
    unfold sg_disconnect in Q. destruct I as [X W]. rewrite X in Q. destruct (isConnected d s) eqn:C; injection Q as <-; unfold refines; cbn [sg_slots sg_next a_conns a_next] in *; splits; auto.
    + rewrite E. apply F.
    + rewrite <- F, <- E. symmetry. apply erase_out. intro J. assert (isConnected d s = true); [|congruence]. apply (refines_conn a); [unfold refines; splits; auto; split; assumption|]. rewrite E, mk_ids in J. exact J.
  - destruct (emit_spec f s s1 c false I R) as [_ [(_ & TR & BT & SL & N1)|(T & _)]]; [|discriminate]. cbn [a_step fst snd]. rewrite E in *. unfold mk_slots in BT, N1, SL at 3. rewrite map_length in *.
    rewrite stay_refine in SL by exact BT. rewrite joined_refine in SL, N1 by exact BT. split; [|rewrite TR; apply mk_ids].
    unfold refines. cbn [a_conns a_next]. rewrite <- NX. splits; auto. rewrite SL. unfold mk_slots. rewrite map_app. reflexivity.
Qed.
Definition fine (p : list N * res bool) : Prop := snd p = Ok false.
Lemma run_refine : forall l a s s1 cs, refines a s -> s_run l s = (s1, cs) -> Forall fine cs -> refines (fst (a_run l a)) s1 /\ map fst cs = snd (a_run l a).
Proof.
  induction l as [|o l IH]; intros a s s1 cs H R F; cbn [s_run] in R; [injection R as <- <-; cbn; auto|].
  destruct (s_step o s) as [[s2 c] r] eqn:Q. destruct (s_run l s2) as [s3 cs3] eqn:Q2. injection R as <- <-. inversion F as [|? ? T F']; subst. unfold fine in T. cbn [snd] in T. subst r.
  destruct (step_refine o a s s2 c H Q) as [H2 C]. cbn [a_run]. destruct (a_step o a) as [a2 c2]. cbn [fst snd] in *. destruct (IH a2 s2 s3 cs3 H2 Q2 F') as [H3 C3]. destruct (a_run l a2) as [a3 cs']. cbn [fst snd map] in *. subst. auto.
Qed.
Lemma refines_new : refines a_new sg_new.
Proof. unfold refines. splits; auto. apply inv_new. Qed.

(* ---- permitted handlers never go wrong ---- *)
Lemma run_acts_total : forall l A x B s, at_slot A x B s -> (sl_live x = true -> sg_cur s = Some (sl_id x)) -> permitted (sl_id x) l -> exists s1 t, run_acts l s = (s1, Ok t).
Proof.
  induction l as [|a l IH]; intros A x B s H L P; [eexists; eexists; reflexivity|]. inversion P as [|? ? Pa Pl]; subst. destruct a as [b|c| |]; cbn [run_acts]; [| |elim Pa|eexists; eexists; reflexivity].
  - apply (IH A x (B ++ mk_slots [(sg_next s, b)])); auto. destruct H as (E & X & W). unfold at_slot, sg_connect. cbn [sg_slots sg_exec sg_next]. rewrite E. splits; [rewrite <- app_assoc; reflexivity|exact X|].
    pose proof (wf_more _ _ [b] W) as M. cbn [numbered length] in M. rewrite <- app_assoc in M. exact M.
  - subst c. destruct (sl_live x) eqn:LX.
    + rewrite (disc_self _ _ _ _ H LX (L eq_refl)). apply (IH A (dead x) B); [|discriminate|exact Pl]. destruct H as (E & X & W). unfold at_slot. cbn [sg_slots sg_exec sg_next]. splits; auto. eapply wf_ids_same; [|exact W]. apply ids_mid. reflexivity.
    + rewrite (disc_dead _ _ _ _ H LX). apply (IH A x B); auto. congruence.
Qed.
Lemma call_total : forall l A x B s, at_slot A x B s -> sg_cur s = Some (sl_id x) -> permitted (sl_id x) l -> exists s1 t, call x l s = (s1, Ok t).
Proof.
  intros l A x B s H C P. destruct (run_acts_total l A x B s H (fun _ => C) P) as (s1 & t & R). unfold call. rewrite R.
  destruct (run_acts_spec l A x B s s1 t H (fun _ => C) (or_introl C) R) as (T & H1 & N1 & C1). destruct t; [eexists; eexists; reflexivity|]. destruct (sl_single x); [|eexists; eexists; reflexivity].
  unfold slot_after, cur_after in *. rewrite C in C1. destruct (sl_live x) eqn:LX; cbn [andb] in *.
  - destruct (leaves (sl_id x) (done l)).
    + change (sl_id x) with (sl_id (dead x)). rewrite (disc_dead A (dead x) _ _ H1 eq_refl). eexists; eexists; reflexivity.
    + rewrite (disc_self _ _ _ _ H1 LX C1). eexists; eexists; reflexivity.
  - rewrite (disc_dead _ _ _ _ H1 LX). eexists; eexists; reflexivity.
Qed.
Lemma loop_total : forall rest f script k it A M s, sg_slots s = A ++ it :: rest ++ M -> wf_ids (A ++ it :: rest ++ M) (sg_next s) -> (length rest < f)%nat ->
  (forall j x, nth_error (it :: rest) j = Some x -> permitted (sl_id x) (script (k + j)%nat)) ->
  exists s1 tr t, emit_loop f script k it (sl_id (List.last rest it)) s = (s1, tr, Ok t).
Proof.
  induction rest as [|y rest IH]; intros f script k it A M s E W F P; (destruct f as [|f]; [lia|]); cbn [emit_loop];
  set (s0 := mkSig (sg_slots s) (sg_next s) true (Some (sl_id it))); pose proof (P 0%nat it eq_refl) as P0; rewrite Nat.add_0_r in P0.
  - assert (A0 : at_slot A it ([] ++ M) s0) by (unfold at_slot; cbn [s0 sg_slots sg_exec sg_next]; auto). destruct (call_total (script k) A it ([] ++ M) s0 A0 eq_refl P0) as (s2 & t2 & C). rewrite C.
    destruct t2; [do 3 eexists; reflexivity|]. cbn [List.last]. rewrite N.eqb_refl. do 3 eexists; reflexivity.
  - assert (A0 : at_slot A it ((y :: rest) ++ M) s0) by (unfold at_slot; cbn [s0 sg_slots sg_exec sg_next]; auto). destruct (call_total (script k) A it ((y :: rest) ++ M) s0 A0 eq_refl P0) as (s2 & t2 & C). rewrite C.
    destruct t2; [do 3 eexists; reflexivity|].
    destruct (call_spec (script k) A it ((y :: rest) ++ M) s0 _ _ A0 eq_refl C) as (T & (E2 & X2 & W2) & N2 & C2). cbn [s0 sg_next] in N2, E2, W2. symmetry in T.
    assert (NL : (sl_id it =? sl_id (List.last (y :: rest) it)) = false).
    { apply N.eqb_neq. intro Q. destruct W as [W _]. rewrite ids_app in W. cbn [ids map] in W. apply NoDup_remove_2 in W. apply W. rewrite in_app_iff. right. rewrite Q. apply in_map. apply in_or_app. left.
      assert (G : forall l (d : slot), l <> [] -> In (List.last l d) l) by (induction l as [|a [|b l] IHl]; intros d N; [contradiction|left; reflexivity|right; apply IHl; discriminate]). apply G. discriminate. }
    rewrite NL.
    set (x' := if goes it (script k) then dead it else it) in *.
    assert (IDX : sl_id x' = sl_id it) by (subst x'; destruct (goes it (script k)); reflexivity).
    assert (NX : next_of (sl_id it) (sg_slots s2) = Some y). { rewrite E2, <- IDX. rewrite next_mid by apply W2. reflexivity. }
    rewrite NX.
    set (s3 := match sg_cur s2 with None => mkSig (erase (sl_id it) (sg_slots s2)) (sg_next s2) true None | Some _ => s2 end) in *.
    set (A' := A ++ (if goes it (script k) then [] else [it])).
    set (M' := M ++ mk_slots (numbered (sg_next s) (joins (done (script k))))).
    assert (S3 : sg_slots s3 = A' ++ y :: rest ++ M' /\ sg_next s3 = sg_next s2 /\ wf_ids (A' ++ y :: rest ++ M') (sg_next s3)).
    { subst s3 A' M' x'. rewrite C2. cbn [app] in E2, W2. rewrite <- app_assoc in E2, W2. destruct (goes it (script k)).
      - cbn [sg_slots sg_next]. rewrite E2. change (sl_id it) with (sl_id (dead it)). rewrite erase_mid by apply W2. rewrite app_nil_r. splits; auto. eapply wf_drop. exact W2.
      - rewrite <- app_assoc. cbn [app]. splits; auto. }
    destruct S3 as (E3 & N3 & W3).
    assert (LL : List.last (y :: rest) it = List.last rest y).
    { assert (GG : forall l (d e : slot), l <> [] -> List.last l d = List.last l e). { induction l as [|a [|b l] IH']; intros d e N; [contradiction|reflexivity|]. cbn [List.last]. apply IH'. discriminate. }
      destruct rest as [|z rest]; [reflexivity|]. change (List.last (y :: z :: rest) it) with (List.last (z :: rest) it). apply GG. discriminate. }
    rewrite LL. cbn [length] in F.
    destruct (IH f script (S k) y A' M' s3 E3 W3 ltac:(lia)) as (s4 & tr & t & Q).
    { intros j z Z. replace (S k + j)%nat with (k + S j)%nat by lia. apply P. exact Z. }
    rewrite Q. do 3 eexists. reflexivity.
Qed.
Lemma emit_total : forall script s, inv s -> (forall k x, nth_error (sg_slots s) k = Some x -> permitted (sl_id x) (script k)) -> exists s1 tr t, sg_emit script s = (s1, tr, Ok t).
Proof.
  intros script s [X W] P. unfold sg_emit. rewrite X. destruct (sg_slots s) as [|x l] eqn:E; [do 3 eexists; reflexivity|].
  destruct (loop_total l (S (length l)) script 0%nat x [] [] s ltac:(rewrite app_nil_r; exact E) ltac:(rewrite app_nil_r; exact W) ltac:(lia) P) as (s1 & tr & t & Q). rewrite Q. do 3 eexists; reflexivity.
Qed.
