(* C100: addresses, state and MTU of a network interface, and the signals about them. *)
From Verif Require Import Base BaseLemmas M_NetIf S_NetIf P_NetIf.
Open Scope list_scope.
Open Scope N_scope.

Notation after ops := (fst (ni_run ni_init ops)).
Notation signals ops := (snd (ni_run ni_init ops)).

(* C100: after every history the interface lists exactly the records added last for their address and not removed since, one per address. *)
Theorem C100_addresses : forall ops a, In a (ni_addrs (after ops)) <-> latest ops a.
Proof. intros ops a. rewrite run_addrs. split; [intros [H|([] & _)]; auto|auto]. Qed.
Print Assumptions C100_addresses.
Theorem C100_one_each : forall ops, NoDup (map na_ip (ni_addrs (after ops))).
Proof. intro ops. apply run_nodup. constructor. Qed.
Print Assumptions C100_one_each.
(* C100: the signals about an address alternate, beginning with onAddressAdded; the address is listed iff the last one is onAddressAdded. *)
Theorem C100_signals : forall ops ip, exists fin : bool, alternate false (told ip (signals ops)) fin /\ (fin = true <-> exists a, In a (ni_addrs (after ops)) /\ na_ip a = ip).
Proof. intros ops ip. exists (ni_has ip (ni_addrs (after ops))). split; [exact (run_told ops ni_init ip)|apply has_iff]. Qed.
Print Assumptions C100_signals.
(* C100: in every state a call that adds or removes returns true iff the set of listed addresses changes; then, and only then, it emits one signal, with the object passed. *)
Theorem C100_add : forall s a s' g b, ni_step s (OpAdd a) = (s', g, Some b) ->
  (b = true <-> na_unspec a = false /\ forall x, In x (ni_addrs s) -> na_ip x <> na_ip a) /\ g = (if b then [SigAdded a] else []).
Proof.
  intros s a s' g b E. cbn [ni_step] in E. unfold ni_add in E. destruct (na_unspec a) eqn:U.
  - injection E as <- <- <-. split; auto. split; [discriminate|intros (D & _); discriminate].
  - injection E as <- <- <-. split; auto. rewrite Bool.negb_true_iff. split.
    + intro H. split; auto. intros x I D. assert (ni_has (na_ip a) (ni_addrs s) = true) by (apply has_iff; eauto). congruence.
    + intros (_ & H). destruct (ni_has _ _) eqn:D; auto. apply has_iff in D as (x & I & D). now destruct (H x I).
Qed.
Print Assumptions C100_add.
Theorem C100_remove : forall s a s' g b, ni_step s (OpRemove a) = (s', g, Some b) ->
  (b = true <-> exists x, In x (ni_addrs s) /\ na_ip x = na_ip a) /\ g = (if b then [SigRemoved a] else []).
Proof.
  intros s a s' g b E. cbn [ni_step] in E. unfold ni_remove in E. rewrite <- has_iff. destruct (ni_has _ _) eqn:D; injection E as <- <- <-; split; auto; split; auto.
Qed.
Print Assumptions C100_remove.
(* C100: state and MTU are what was set last; their signals are the changes from the initial value, each from the value before to another one, and end in the present value. *)
Theorem C100_state : forall ops, ni_state (after ops) = last_state 0 ops /\ chain 0 (states (signals ops)) (ni_state (after ops)).
Proof. intro ops. destruct (run_values ops ni_init) as ((A & B) & _). auto. Qed.
Print Assumptions C100_state.
Theorem C100_mtu : forall ops, ni_mtu (after ops) = last_mtu 0 ops /\ chain 0 (mtus (signals ops)) (ni_mtu (after ops)).
Proof. intro ops. destruct (run_values ops ni_init) as (_ & (A & B)). auto. Qed.
Print Assumptions C100_mtu.
(* C100 does not say that signals tell the listed records: a record replaced by one with other flags is not signalled. *)
Theorem C100_records_refuted : exists ops a, In a (ni_addrs (after ops)) /\ ~ In (SigAdded a) (signals ops).
Proof.
  exists [OpAdd (mkNa 7 false 0); OpAdd (mkNa 7 false 32)], (mkNa 7 false 32). cbn. split; [auto|]. intros [E|[]]. discriminate.
Qed.
Print Assumptions C100_records_refuted.

Example C100_ex :
  let a := mkNa 7 false 0 in let a' := mkNa 7 false 32 in let b := mkNa 9 false 1 in
  let ops := [OpState 4; OpAdd a; OpAdd b; OpAdd a'; OpMtu 1500; OpRemove b; OpState 4; OpRemove b; OpAdd (mkNa 0 true 0); OpAdd b; OpState 1] in
  ni_run ni_init ops = (mkNi [b; a'] 1 1500, [SigState 0 4; SigAdded a; SigAdded b; SigMtu 0 1500; SigRemoved b; SigAdded b; SigState 4 1]) /\
  latest ops a' /\ told 9 (signals ops) = [true; false; true].
Proof.
  cbv zeta. split; [reflexivity|]. split; [|reflexivity].
  exists [OpState 4; OpAdd (mkNa 7 false 0); OpAdd (mkNa 9 false 1)]. eexists. split; [reflexivity|]. split; [reflexivity|].
  intros o I. cbn in I. repeat destruct I as [<-|I]; cbn; try tauto; try discriminate; intros (E & _); discriminate.
Qed.
Example C100_step_ex : ni_step (mkNi [mkNa 7 false 0] 0 0) (OpAdd (mkNa 8 false 0)) = (mkNi [mkNa 8 false 0; mkNa 7 false 0] 0 0, [SigAdded (mkNa 8 false 0)], Some true)
  /\ ni_step (mkNi [mkNa 7 false 0] 0 0) (OpRemove (mkNa 7 false 5)) = (mkNi [] 0 0, [SigRemoved (mkNa 7 false 5)], Some true).
Proof. split; reflexivity. Qed.
