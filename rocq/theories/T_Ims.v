(* Theorems about the in-memory storage: C30-C34, C63. *)
From Coq Require Import Lia ZifyBool ZifyNat ZifyN Sorting.Sorted Permutation.
From Verif Require Import Base BaseLemmas M_Tlv M_Str M_Name S_Name P_NameOrder M_Ims S_Ims P_Ims P_ImsI P_ImsT.

Lemma reached_inv : forall pol sched L ops, usable pol L ops ->
  exists s h, reached pol sched L ops s h /\ Inv (nlen ops) h s /\ im_limit s = L /\ im_policy s = pol /\ evicts_ok pol [] h.
Proof.
  intros pol sched L ops (A & B & C).
  destruct (run_spec ops 0 [] (im_init pol sched L) (Inv_init pol sched L A B)) as (s & h & E & I & F & G); [lia|].
  exists s, h. unfold reached. destruct F as [F1 F2]. splits; auto.
Qed.
Lemma reached_Inv : forall pol sched L ops s h, usable pol L ops -> reached pol sched L ops s h ->
  Inv (nlen ops) h s /\ im_limit s = L /\ im_policy s = pol /\ evicts_ok pol [] h.
Proof.
  intros pol sched L ops s h U H. destruct (reached_inv pol sched L ops U) as (s' & h' & A & B). unfold reached in *. rewrite A in H. injection H as <- <-. exact B.
Qed.
Lemma pk_full_inj : forall a b, pk_full a = pk_full b -> a = b.
Proof.
  intros [n d] [n' d'] H. unfold pk_full in H. cbn in H. apply app_inj_tail in H. destruct H as [-> H]. injection H as ->. reflexivity.
Qed.

(* sample packets and storages *)
Definition ex_pkt (c : N) (d : N) : pkt := mkPkt [(8, [nb 97]); (8, [nb c])] (repeat (nb d) 32).
Definition ex_ins (n : nat) : list iop := map (fun i => IInsert (ex_pkt (N.of_nat i) 7) true) (seq 0 n).
Definition ex_state (pol : policy) (L : N) (ops : list iop) : ims := match im_run ops (im_init pol true L) with Ok (s, _) => s | Err _ => im_init pol true L end.
Definition ex_log (pol : policy) (L : N) (ops : list iop) : list iobs := match im_run ops (im_init pol true L) with Ok (_, h) => h | Err _ => [] end.

(* ================= C30: capacity ================= *)
(* C30_capacity_partial: with a limit of at least 16, no history fails or exceeds the limit or the capacity.
   Missing: limits below 16, for which it is false (C30_limit_refuted, C30_fail_refuted). *)
Theorem C30_capacity_partial : forall pol sched L ops, usable pol L ops ->
  exists s h, reached pol sched L ops s h /\ count s <= L /\ count s <= im_cap s /\ im_cap s <= L /\ im_n s = count s.
Proof.
  intros pol sched L ops U. destruct (reached_inv pol sched L ops U) as (s & h & A & I & F & G & _). exists s, h.
  assert (Hn := i_n _ _ _ I). assert (Hc := i_cap _ _ _ I). destruct (i_min _ _ _ I) as [M1 M2].
  assert (E : count s = nlen (im_cache s)) by (unfold count, stored, nlen; rewrite map_length; reflexivity).
  splits; auto; lia.
Qed.
Print Assumptions C30_capacity_partial.
Example C30_capacity_ex : usable LRU 20 (ex_ins 25) /\ count (ex_state LRU 20 (ex_ins 25)) = 20.
Proof. split; [unfold usable; splits; [vm_compute; discriminate | discriminate | vm_compute; reflexivity] | vm_compute; reflexivity]. Qed.

(* an insertion always succeeds and stores the packet; it evicts one packet if and only if the storage was at its limit *)
Theorem C30_insert_partial : forall pol sched L ops s h p w, usable pol L ops -> reached pol sched L ops s h ->
  exists s' o, im_insert p w s = Ok (s', o) /\ In p (stored s') /\
    ((In p (stored s) \/ count s < L) /\ (forall x, In x (stored s') <-> x = p \/ In x (stored s)) \/
     ~ In p (stored s) /\ count s = L /\ count s' = L /\
     exists v, In v (stored s) /\ forall x, In x (stored s') <-> x = p \/ In x (stored s) /\ x <> v).
Proof.
  intros pol sched L ops s h p w U H. destruct (reached_Inv _ _ _ _ _ _ U H) as (I & F & G & _).
  destruct (insert_spec _ h s p w I) as (s' & o & A & B & C & D & E); [destruct U as (_ & _ & U); exact U|].
  assert (Cn : forall t k h, Inv k h t -> im_n t = count t) by (intros t k h0 It; rewrite (i_n _ _ _ It); unfold count, stored, nlen; rewrite map_length; reflexivity).
  exists s', o. split; [exact A|].
  assert (ins : forall e c x, In x (map en_pk (ent_insert e c)) <-> x = en_pk e \/ In x (map en_pk c)).
  { intros e c x. rewrite (Permutation_map en_pk (ent_insert_perm e c)). cbn. split; intros [X|X]; auto. }
  destruct E as [(E1 & -> & ->)|(E1 & e & E2 & E3 & [(E4 & E5 & E6)|(E4 & E5 & v & E6 & E7)])].
  - assert (X : In p (stored s)) by (destruct E1 as [E1|(x & E1 & E2)]; [exact E1 | apply pk_full_inj in E2; subst; exact E1]).
    split; [exact X|]. left. split; [left; exact X|]. intro x; split; [auto | intros [-> | Y]; auto].
  - assert (X : forall x, In x (stored s') <-> x = p \/ In x (stored s)) by (intro x; unfold stored; rewrite E6, ins, E2; reflexivity).
    split; [apply X; left; reflexivity|]. left. split; [right; rewrite <- (Cn _ _ _ I); lia | exact X].
  - assert (X : forall x, In x (stored s') <-> x = p \/ In x (stored s) /\ x <> en_pk v).
    { intro x. unfold stored. rewrite E7, ins, E2. split; intros [Y|Y]; auto; right.
      - apply in_map_iff in Y. destruct Y as (y & <- & Y). apply (filter_In (fun x => negb (names_eqb (en_full x) (en_full v)))) in Y.
        destruct Y as [Y1 Y2]. apply negb_true_iff, names_eqb_neq in Y2. split; [apply in_map; exact Y1|]. intro Z. apply Y2. unfold en_full. rewrite Z; reflexivity.
      - destruct Y as [Y Z]. apply in_map_iff in Y. destruct Y as (y & <- & Y). apply in_map. apply (filter_In (fun x => negb (names_eqb (en_full x) (en_full v)))).
        split; [exact Y|]. apply negb_true_iff, names_eqb_neq. intro W. apply Z. apply pk_full_inj; exact W. }
    split; [apply X; left; reflexivity|]. right. splits.
    + intro Y. exact (E1 _ Y eq_refl).
    + rewrite <- (Cn _ _ _ I), <- F. exact E4.
    + rewrite <- (Cn _ _ _ B), E5, E4. exact F.
    + exists (en_pk v). split; [apply in_map; exact E6 | exact X].
Qed.
Print Assumptions C30_insert_partial.
Example C30_insert_ex : exists s h, reached FIFO true 16 (ex_ins 16) s h /\ count s = 16 /\
  is_ok (im_insert (ex_pkt 40 1) true s) = true.
Proof. do 2 eexists. split; [vm_compute; reflexivity|]. split; vm_compute; reflexivity. Qed.

(* with a limit below 16 (here 1): insert, erase and two insertions leave two packets in the storage *)
Theorem C30_limit_refuted : exists ops s h, reached LRU true 1 ops s h /\ ~ count s <= 1.
Proof.
  exists [IInsert (ex_pkt 1 1) true; IErase [] true; IInsert (ex_pkt 1 1) true; IInsert (ex_pkt 2 1) true]. do 2 eexists.
  split; [vm_compute; reflexivity|]. intro H. vm_compute in H. apply H. reflexivity.
Qed.
Print Assumptions C30_limit_refuted.
(* and seventeen insertions then run out of entries: an assertion fails, or an empty stack is read *)
Theorem C30_fail_refuted : exists ops, im_run ops (im_init LRU true 1) = Err EAssert.
Proof. exists ([IInsert (ex_pkt 1 1) true; IErase [] true] ++ ex_ins 17). vm_compute. reflexivity. Qed.
Print Assumptions C30_fail_refuted.

(* ================= C31: lookup by Interest ================= *)
(* C31_find_partial: the answer is the first eligible packet in canonical order.  Missing: a MustBeFresh Interest whose
   name is the full name of a packet that is stale, which is returned nevertheless (C31_fresh_refuted). *)
Theorem C31_find_partial : forall pol sched L ops s h q, usable pol L ops -> reached pol sched L ops s h ->
  (q_mbf q = true -> forall p, pk_full p = q_name q -> ~ holds s p false) ->
  exists s' o c, im_findInterest q s = Ok (s', o, c) /\ leftmost (q_eligible q s) c.
Proof.
  intros pol sched L ops s h q U H X. destruct (reached_Inv _ _ _ _ _ _ U H) as (I & F & G & _).
  destruct (findInterest_spec _ h s q I) as (s' & o & c & A & B); [destruct U as (_ & _ & U); exact U|].
  exists s', o, c. split; [exact A|]. apply (findInterest_leftmost q s (i_sorted _ _ _ I)).
  - intros p Hp M. exact (X M p Hp).
  - rewrite A. reflexivity.
Qed.
Print Assumptions C31_find_partial.
Example C31_find_ex : exists s' o, im_findInterest (mkQ [(8, [nb 97])] true false) (ex_state LFU 20 (ex_ins 5)) = Ok (s', o, Some (ex_pkt 0 7)).
Proof. do 2 eexists. vm_compute. reflexivity. Qed.

Theorem C31_exact : forall pol sched L ops s h q p, usable pol L ops -> reached pol sched L ops s h ->
  In p (stored s) -> q_name q = pk_full p -> exists s' o, im_findInterest q s = Ok (s', o, Some p).
Proof.
  intros pol sched L ops s h q p U H Hp Hq. destruct (reached_Inv _ _ _ _ _ _ U H) as (I & F & G & _).
  apply in_map_iff in Hp. destruct Hp as (e & <- & He). unfold im_findInterest. rewrite Hq. fold (en_full e).
  rewrite (im_lookup_in s e (i_sorted _ _ _ I) He). exists s, []. reflexivity.
Qed.
Print Assumptions C31_exact.
Example C31_exact_ex : In (ex_pkt 3 7) (stored (ex_state FIFO 16 (ex_ins 5))).
Proof. vm_compute. tauto. Qed.

Theorem C31_fresh_refuted : exists ops s h q p s' o, reached LRU true 16 ops s h /\ q_mbf q = true /\
  im_findInterest q s = Ok (s', o, Some p) /\ ~ holds s p true.
Proof.
  exists (ex_ins 1 ++ [IStale 15]). do 2 eexists. exists (mkQ (pk_full (ex_pkt 0 7)) false true), (ex_pkt 0 7). do 2 eexists.
  split; [vm_compute; reflexivity|]. split; [reflexivity|]. split; [vm_compute; reflexivity|].
  intros (e & [<-|[]] & _ & X). discriminate.
Qed.
Print Assumptions C31_fresh_refuted.

(* ================= C32: lookup by Name ================= *)
Theorem C32_find_name : forall pol sched L ops s h n, usable pol L ops -> reached pol sched L ops s h ->
  exists s' o c, im_findName n s = Ok (s', o, c) /\ leftmost (fun p => In p (stored s) /\ is_prefix n (pk_full p)) c.
Proof.
  intros pol sched L ops s h n U H. destruct (reached_Inv _ _ _ _ _ _ U H) as (I & F & G & _).
  destruct (findName_spec _ h s n I) as (s' & o & c & A & B); [destruct U as (_ & _ & U); exact U|].
  exists s', o, c. split; [exact A|]. apply (findName_leftmost n s (i_sorted _ _ _ I)). rewrite A. reflexivity.
Qed.
Print Assumptions C32_find_name.
Example C32_find_name_ex : exists s' o, im_findName [(8, [nb 97]); (8, [nb 3])] (ex_state FIFO 20 (ex_ins 5)) = Ok (s', o, Some (ex_pkt 3 7)).
Proof. do 2 eexists. vm_compute. reflexivity. Qed.

(* a lookup changes neither what is stored nor its freshness *)
Theorem C32_find_pure : forall pol sched L ops s h n q, usable pol L ops -> reached pol sched L ops s h ->
  (forall s' o c, im_findName n s = Ok (s', o, c) \/ im_findInterest q s = Ok (s', o, c) ->
   stored s' = stored s /\ forall p b, holds s' p b <-> holds s p b).
Proof.
  intros pol sched L ops s h n q U H s' o c E. destruct (reached_Inv _ _ _ _ _ _ U H) as (I & F & G & _).
  assert (K : nlen ops < 2 ^ 60) by (destruct U as (_ & _ & U); exact U).
  assert (X : im_cache s' = im_cache s).
  { destruct E as [E|E].
    - destruct (findName_spec _ h s n I K) as (s1 & o1 & c1 & A & _ & B & _). rewrite A in E. injection E as <- _ _. exact B.
    - destruct (findInterest_spec _ h s q I K) as (s1 & o1 & c1 & A & _ & B & _). rewrite A in E. injection E as <- _ _. exact B. }
  unfold stored, holds. rewrite X. split; [reflexivity | intros; reflexivity].
Qed.
Print Assumptions C32_find_pure.

(* ================= C33: erase ================= *)
(* C33_erase_prefix_partial.  Missing: a prefix that is itself the full name of a stored packet (C33_prefix_refuted). *)
Theorem C33_erase_prefix_partial : forall pol sched L ops s h n, usable pol L ops -> reached pol sched L ops s h ->
  (forall p, In p (stored s) -> pk_full p <> n) ->
  exists s' o, im_erase n true s = Ok (s', o) /\ forall p b, holds s' p b <-> holds s p b /\ ~ is_prefix n (pk_name p).
Proof.
  intros pol sched L ops s h n U H X. destruct (reached_Inv _ _ _ _ _ _ U H) as (I & F & G & _).
  destruct (erase_spec _ h s n true I) as (s' & o & A & B & C & D & E1 & E2). exists s', o. split; [exact A|].
  intros p b. split.
  - intros (e & Y1 & Y2 & Y3). split; [exists e; auto|]. rewrite <- Y2. apply (E2 X e); auto.
  - intros [(e & Y1 & Y2 & Y3) N]. exists e. splits; auto. apply (E2 X e Y1). rewrite Y2. exact N.
Qed.
Print Assumptions C33_erase_prefix_partial.
Example C33_erase_prefix_ex : exists s' o, im_erase [(8, [nb 97]); (8, [nb 3])] true (ex_state FIFO 20 (ex_ins 5)) = Ok (s', o) /\ count s' = 4.
Proof. do 2 eexists. split; vm_compute; reflexivity. Qed.

Theorem C33_erase_exact : forall pol sched L ops s h n, usable pol L ops -> reached pol sched L ops s h ->
  exists s' o, im_erase n false s = Ok (s', o) /\ forall p b, holds s' p b <-> holds s p b /\ pk_full p <> n.
Proof.
  intros pol sched L ops s h n U H. destruct (reached_Inv _ _ _ _ _ _ U H) as (I & F & G & _).
  destruct (erase_spec _ h s n false I) as (s' & o & A & B & C & D & E1 & E2). exists s', o. split; [exact A|].
  intros p b. split.
  - intros (e & Y1 & Y2 & Y3). split; [exists e; auto|]. rewrite <- Y2. apply (E2 e); auto.
  - intros [(e & Y1 & Y2 & Y3) N]. exists e. splits; auto. apply (E2 e Y1). unfold en_full. rewrite Y2. exact N.
Qed.
Print Assumptions C33_erase_exact.
Example C33_erase_exact_ex : exists s' o, im_erase (pk_full (ex_pkt 2 7)) false (ex_state FIFO 20 (ex_ins 5)) = Ok (s', o) /\ count s' = 4.
Proof. do 2 eexists. split; vm_compute; reflexivity. Qed.

Theorem C33_prefix_refuted : exists ops s h n s' o p, reached LRU true 16 ops s h /\ im_erase n true s = Ok (s', o) /\
  In p (stored s) /\ is_prefix n (pk_name p) /\ In p (stored s').
Proof.
  set (b := mkPkt (pk_full (ex_pkt 0 7) ++ [(8, [])]) (repeat (nb 1) 32)).
  exists (ex_ins 1 ++ [IInsert b true]). do 2 eexists. exists (pk_full (ex_pkt 0 7)). do 2 eexists. exists b.
  split; [vm_compute; reflexivity|]. split; [vm_compute; reflexivity|].
  split; [vm_compute; tauto|]. split; [exists [(8, [])]; reflexivity | vm_compute; tauto].
Qed.
Print Assumptions C33_prefix_refuted.

(* ================= C34: replacement ================= *)
(* C34_victim_partial: each packet evicted is one the policy allows, given the insertions, accesses and removals before.
   Missing: a packet returned by find(Interest) for an Interest carrying its full name does not count as accessed
   (C34_access_refuted). *)
Theorem C34_victim_partial : forall pol sched L ops s h h1 f h2, usable pol L ops -> reached pol sched L ops s h ->
  h = h1 ++ OEvict f :: h2 -> victim pol h1 f.
Proof.
  intros pol sched L ops s h h1 f h2 U H E. destruct (reached_Inv _ _ _ _ _ _ U H) as (I & F & G & V). exact (V _ _ _ E).
Qed.
Print Assumptions C34_victim_partial.
Example C34_victim_ex : exists h1 h2, ex_log LRU 16 (ex_ins 16 ++ [IFindName (pk_name (ex_pkt 0 7))] ++ [IInsert (ex_pkt 50 1) true]) = h1 ++ OEvict (pk_full (ex_pkt 1 7)) :: h2.
Proof.
  exists (firstn 17 (ex_log LRU 16 (ex_ins 16 ++ [IFindName (pk_name (ex_pkt 0 7))] ++ [IInsert (ex_pkt 50 1) true]))), [OIns (pk_full (ex_pkt 50 1))].
  vm_compute. reflexivity.
Qed.
(* the history is that of the calls: what it says is present is what is stored, and lookups are accesses *)
Theorem C34_log_present : forall pol sched L ops s h f, usable pol L ops -> reached pol sched L ops s h ->
  (present h f <-> exists p, In p (stored s) /\ pk_full p = f).
Proof.
  intros pol sched L ops s h f U H. destruct (reached_Inv _ _ _ _ _ _ U H) as (I & _). rewrite (i_pres _ _ _ I). unfold stored. split.
  - intros (e & A & B). exists (en_pk e). split; [apply in_map; exact A | exact B].
  - intros (p & A & B). apply in_map_iff in A. destruct A as (e & <- & A). exists e; auto.
Qed.
Print Assumptions C34_log_present.
Theorem C34_log_access_partial : forall s s' o c,
  (forall n, im_findName n s = Ok (s', o, c) -> o = match c with Some p => [OAcc (pk_full p)] | None => [] end) /\
  (forall q, (forall p, In p (stored s) -> pk_full p <> q_name q) -> im_findInterest q s = Ok (s', o, c) ->
    o = match c with Some p => [OAcc (pk_full p)] | None => [] end).
Proof.
  intros s s' o c.
  assert (F : forall e, found e s = Ok (s', o, c) -> o = match c with Some p => [OAcc (pk_full p)] | None => [] end).
  { intros e H. unfold found in H. destruct (im_afterAccess _ _); cbn in H; [|discriminate]. injection H as _ <- <-. reflexivity. }
  assert (M : Ok (s, [], None) = Ok (s', o, c) -> o = match c with Some p => [OAcc (pk_full p)] | None => [] end) by (intro H; injection H as _ <- <-; reflexivity).
  split.
  - intros n H. unfold im_findName in H. destruct (snd _) as [|e l]; [exact (M H)|]. destruct (prefixb _ _); [exact (F _ H) | exact (M H)].
  - intros q X H. unfold im_findInterest in H. destruct (im_lookup (q_name q) s) as [e|] eqn:EL.
    + apply im_lookup_some in EL. destruct EL as [A B]. exfalso. apply (X (en_pk e)); [apply in_map; exact A | exact B].
    + destruct (im_lower _ _) as [a [|e l]]; [exact (M H)|]. destruct (im_selectChild _ _); [exact (F _ H) | exact (M H)].
Qed.
Print Assumptions C34_log_access_partial.
Example C34_log_access_ex : exists s' o c, im_findInterest (mkQ (pk_name (ex_pkt 2 7)) false false) (ex_state LFU 16 (ex_ins 4)) = Ok (s', o, Some c).
Proof. do 3 eexists. vm_compute. reflexivity. Qed.
(* and an insertion of a packet that is not stored is logged last, one that is stored is not *)
Theorem C34_log_insert : forall pol sched L ops s h p w s' o, usable pol L ops -> reached pol sched L ops s h ->
  im_insert p w s = Ok (s', o) -> (In p (stored s) -> o = []) /\ (~ In p (stored s) -> exists o', o = o' ++ [OIns (pk_full p)]).
Proof.
  intros pol sched L ops s h p w s' o U H E. destruct (reached_Inv _ _ _ _ _ _ U H) as (I & F & G & _). unfold im_insert in E.
  destruct (im_lookup (pk_full p) s) as [x|] eqn:EL.
  - injection E as <- <-. split; [auto|]. intro N. exfalso. apply N. apply im_lookup_some in EL. destruct EL as [A B].
    replace p with (en_pk x) by (apply pk_full_inj; exact B). apply in_map; exact A.
  - split.
    + intro X. apply in_map_iff in X. destruct X as (e & <- & A). exfalso. exact (im_lookup_none _ _ EL _ A eq_refl).
    + intros _. destruct (if im_isFull s && _ then _ else _) as [r1|]; [|discriminate]. cbn [bind] in E.
      destruct (if im_isFull (fst r1) && _ then _ else _) as [r2|]; [|discriminate]. cbn [bind] in E.
      destruct (im_free (fst r2)); [discriminate|]. injection E as _ <-. exists (snd r1 ++ snd r2). rewrite <- app_assoc. reflexivity.
Qed.
Print Assumptions C34_log_insert.

(* LRU: packet 0 is looked up last, by its full name, and is evicted first *)
Theorem C34_access_refuted : exists ops s h q p s1 o1 s2, reached LRU true 16 ops s h /\
  im_findInterest q s = Ok (s1, o1, Some p) /\ im_insert (ex_pkt 50 1) true s1 = Ok (s2, [OEvict (pk_full p); OIns (pk_full (ex_pkt 50 1))]) /\ count s1 = 16.
Proof.
  exists (ex_ins 16). do 2 eexists. exists (mkQ (pk_full (ex_pkt 0 7)) false false), (ex_pkt 0 7). do 3 eexists.
  split; [vm_compute; reflexivity|]. split; [vm_compute; reflexivity|]. split; vm_compute; reflexivity.
Qed.
Print Assumptions C34_access_refuted.

(* ================= C63: iteration ================= *)
(* C63_iterate_partial: missing the empty storage, whose begin() reads past the end (C63_empty_refuted) *)
Theorem C63_iterate_partial : forall pol sched L ops s h, usable pol L ops -> reached pol sched L ops s h -> count s <> 0 ->
  exists l, im_iterate s = Ok l /\ (forall p, In p l <-> exists b, holds s p b) /\
    forall a p b q c, l = a ++ p :: b ++ q :: c -> names_lt (pk_full p) (pk_full q).
Proof.
  intros pol sched L ops s h U H N. destruct (reached_Inv _ _ _ _ _ _ U H) as (I & F & G & _). exists (map en_pk (im_cache s)).
  split; [|split].
  - unfold im_iterate, im_begin. unfold count, stored in N. destruct (im_cache s); [exfalso; apply N; reflexivity | reflexivity].
  - intro p. rewrite in_map_iff. unfold holds. split; [intros (e & A & B); exists (en_fresh e), e; auto | intros (b & e & A & B & C); exists e; auto].
  - intros a p b q c E. assert (S := i_sorted _ _ _ I). revert a E. induction (im_cache s) as [|e l IH]; intros a E; [destruct a; discriminate|].
    apply sorted_cons in S. destruct S as [S FA]. rewrite Forall_forall in FA. cbn [map] in E. destruct a as [|x a]; cbn in E; injection E as E1 E2.
    + subst p. assert (X : In q (map en_pk l)) by (rewrite E2; apply in_or_app; right; left; reflexivity).
      apply in_map_iff in X. destruct X as (y & <- & Y). exact (FA _ Y).
    + apply (IH S a E2).
Qed.
Print Assumptions C63_iterate_partial.
Example C63_iterate_ex : exists l, im_iterate (ex_state FIFO 16 (ex_ins 3)) = Ok l /\ length l = 3%nat.
Proof. eexists. split; vm_compute; reflexivity. Qed.
Theorem C63_empty_refuted : exists ops s h, usable FIFO 16 ops /\ reached FIFO true 16 ops s h /\ im_iterate s = Err EUb.
Proof.
  exists []. do 2 eexists. split; [unfold usable; splits; [lia | discriminate | vm_compute; reflexivity]|].
  split; [vm_compute; reflexivity | reflexivity].
Qed.
Print Assumptions C63_empty_refuted.
