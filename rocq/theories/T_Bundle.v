(* C94-C95: certificate bundles. *)
From Coq Require Import Lia ZifyBool ZifyNat ZifyN.
From Verif Require Import Base BaseLemmas M_Tlv S_Tlv P_Tlv P_Block M_Str M_Name S_Name P_Name P_NameOrder P_NameUri M_Packet S_Packet P_Packet P_Data T_Packet M_Pib P_IntPolicy M_Bundle S_Bundle P_Bundle.
Open Scope N_scope.
Open Scope list_scope.

(* ---- C94 ---- *)
(* Any segments, however the octets are divided among them: the certificates given so far are those at the beginning of all octets so far, in order.
   Unless that beginning is broken no call throws and exactly the octets that are not yet a complete element are kept.  When it is broken, one call throws
   and every later call throws and gives nothing.  Missing for the full claim: malformed octets are not always reported; C94_malformed_refuted. *)
Theorem C94_stream_partial : forall ws d l, bd_run ws bd_new = (d, l) ->
  length l = length ws /\ exists r, bundle (concat ws) (given l) r /\
  match r with
  | Waiting b => d = mkBd b false /\ Forall (fun p => snd p = None) l
  | Broken => bd_err d = true /\ exists l1 cs x l2, l = l1 ++ (cs, Some x) :: l2 /\ Forall (fun p => snd p = None) l1 /\ Forall (fun p => p = ([], Some ETlv)) l2
  end.
Proof. intros ws d l H. exact (run_bundle ws [] d l nil_waits H). Qed.
Print Assumptions C94_stream_partial.
(* what is at the beginning of a sequence of octets is determined by them *)
Theorem C94_bundle_unique : forall w, exists cs r, bundle w cs r /\ forall cs' r', bundle w cs' r' -> cs' = cs /\ r' = r.
Proof. intro w. destruct (bundle_total w) as (cs & r & B). exists cs, r. split; auto. intros cs' r' B'. exact (bundle_fun _ _ _ B' _ _ B). Qed.
Print Assumptions C94_bundle_unique.
(* how the octets are divided does not matter *)
Theorem C94_split : forall ws vs d l d' l', concat ws = concat vs -> bd_run ws bd_new = (d, l) -> bd_run vs bd_new = (d', l') ->
  given l = given l' /\ bd_err d = bd_err d' /\ (bd_err d = false -> d = d').
Proof.
  intros ws vs d l d' l' E H H'. destruct (C94_stream_partial _ _ _ H) as (_ & r & B & S). destruct (C94_stream_partial _ _ _ H') as (_ & r' & B' & S').
  rewrite E in B. destruct (bundle_fun _ _ _ B _ _ B') as (-> & ->). split; auto. destruct r' as [b|].
  - destruct S as (-> & _), S' as (-> & _). auto.
  - destruct S as (X & _), S' as (X' & _). rewrite X, X'. split; auto. discriminate.
Qed.
Print Assumptions C94_split.
(* a decoder that failed stays as it is, gives nothing and throws at every call *)
Theorem C94_failed : forall w d, bd_err d = true -> bd_append w d = (d, [], Some ETlv).
Proof. intros w d H. unfold bd_append. now rewrite H. Qed.
Print Assumptions C94_failed.
(* the octets of certificates give exactly these, whatever elements that may be ignored are between them *)
Inductive cert_list : list bytes -> list data -> Prop :=
| cl_nil : cert_list [] []
| cl_cert : forall w e c ws cs, blockFromWire w = Ok e -> e_type e = 6 -> is_cert e c -> cert_list ws cs -> cert_list (w :: ws) (c :: cs)
| cl_skip : forall w e ws cs, blockFromWire w = Ok e -> e_type e <> 6 -> ~ critical (e_type e) -> cert_list ws cs -> cert_list (w :: ws) cs.
Theorem C94_complete : forall es cs ws d l, cert_list es cs -> concat ws = concat es -> bd_run ws bd_new = (d, l) ->
  given l = cs /\ d = bd_new /\ Forall (fun p => snd p = None) l.
Proof.
  intros es cs ws d l C E H. destruct (C94_stream_partial _ _ _ H) as (_ & r & B & S). rewrite E in B.
  assert (B' : bundle (concat es) cs (Waiting [])).
  { clear -C. induction C; cbn [concat]; [apply bun_wait; exact nil_waits|eapply bun_cert; eauto|eapply bun_skip; eauto]. }
  destruct (bundle_fun _ _ _ B _ _ B') as (-> & ->). destruct S as (-> & S). auto.
Qed.
Print Assumptions C94_complete.
(* An element of type 0, which no TLV has, is never reported: whatever follows, nothing is given, nothing is thrown and all octets are kept. *)
Theorem C94_malformed_refuted : exists w, forall ws d l, bd_run (w :: ws) bd_new = (d, l) -> given l = [] /\ Forall (fun p => snd p = None) l /\ d = mkBd (w ++ concat ws) false.
Proof.
  exists [x00; x00]. intros ws d l H. destruct (C94_stream_partial _ _ _ H) as (_ & r & B & S). cbn [concat] in B.
  assert (B' : bundle ([x00; x00] ++ concat ws) [] (Waiting ([x00; x00] ++ concat ws))).
  { apply bun_wait. intros w1 w2 e E F. pose proof (bfw_buffer w1 w2 e F) as G. rewrite <- E in G. discriminate G. }
  destruct (bundle_fun _ _ _ B _ _ B') as (E & ->). destruct S as (-> & S). auto.
Qed.
Print Assumptions C94_malformed_refuted.

Definition kc (s : bytes) : comp := comp_ofString s.
Definition ex_cname : name := nm_of [kc (str "A"); kc (str "KEY"); kc (str "k"); kc (str "i"); kc (str "v")].
Definition ex_cert_val : bytes := Eval vm_compute in
  match da_value (mkData ex_cname (mkMI 2 1000 None [] None) (mkComp 21 None (str "key")) ex_si (comp_of_elem (mkBlock 23 (str "sig"))) None nm_empty) with Ok v => v | Err _ => [] end.
Definition ex_cert_wire : bytes := Eval vm_compute in tlv_enc 6 ex_cert_val.
Definition ex_cert : data := Eval vm_compute in fst (da_decode (mkBlock 6 ex_cert_val) da_empty).
Lemma ex_cert_is : exists e, blockFromWire ex_cert_wire = Ok e /\ e_type e = 6 /\ is_cert e ex_cert.
Proof.
  eexists. split; [vm_compute; reflexivity|]. split; [reflexivity|]. split; [vm_compute; reflexivity|]. split; [|split; [reflexivity|discriminate]].
  exists [(8, str "A")], (8, str "k"), (8, str "i"), (8, str "v"). vm_compute. reflexivity.
Qed.
(* two certificates with an ignored element between, in three segments; then a critical element *)
Example C94_ex :
  let w := ex_cert_wire ++ tlv_enc 128 (str "zz") ++ ex_cert_wire in
  let (d, l) := bd_run [ntake 10 w; ntake 60 (ndrop 10 w); ndrop 70 w; tlv_enc 7 []; ex_cert_wire] bd_new in
  map (fun p => length (fst p)) l = [0; 1; 1; 0; 0]%nat /\ map snd l = [None; None; None; Some ETlv; Some ETlv] /\ bd_err d = true /\ given l = [ex_cert; ex_cert].
Proof. vm_compute. repeat split; reflexivity. Qed.
Example C94_ex_complete : cert_list [ex_cert_wire; tlv_enc 128 (str "zz"); ex_cert_wire] [ex_cert; ex_cert].
Proof.
  destruct ex_cert_is as (e & F & T & C). eapply cl_cert; eauto. eapply cl_skip; [vm_compute; reflexivity|discriminate| |eapply cl_cert; eauto; constructor].
  apply isCritical_false. reflexivity.
Qed.

(* ---- C95 ---- *)
(* The first request for a Data packet is for the newest bundle under the packet's name without implicit digest and segment number;
   packets without a name and Interests go to the inner fetcher. *)
Theorem C95_first : forall dconv o final, nm_size o < 2 ^ 64 -> n_comps o <> [] -> exists n base,
  bf_fetch dconv (Some o) (mkBt None final) = BfExpress n true true /\ bundle_base dconv (n_comps o) base /\ nkey n = map ckey base ++ [(8, str "_BUNDLE"); (8, [x00])].
Proof.
  intros dconv o final L NE. destruct (derive_spec dconv o NE L) as (n & base & D & B & K). exists n, base. split; auto.
  unfold bf_fetch. cbn [bt_name]. rewrite D. unfold nm_size, nlen. destruct (n_comps o); [contradiction|]. reflexivity.
Qed.
Print Assumptions C95_first.
Theorem C95_base_unique : forall dconv n b1 b2, bundle_base dconv n b1 -> bundle_base dconv n b2 -> b1 = b2.
Proof. exact base_fun. Qed.
Print Assumptions C95_base_unique.
Theorem C95_inner : forall dconv t, bf_fetch dconv None t = BfInner /\ forall o final, n_comps o = [] -> bf_fetch dconv (Some o) (mkBt None final) = BfInner.
Proof. intros dconv t. split; auto. intros o final E. unfold bf_fetch, nm_size, nlen. cbn [bt_name]. now rewrite E. Qed.
Print Assumptions C95_inner.
(* After segment s of a bundle with typed segment numbers, the next request is for segment s + 1 under the same name, unless the bundle's last segment comes before it.
   Missing for the full claim: s + 1 takes more octets than s; C95_successor_refuted. *)
Theorem C95_next_partial : forall dconv o t full base c s, n_comps full = base ++ [c] -> nm_size full < 2 ^ 64 -> c_type c = 50 -> nlen (c_val c) <= 8 ->
  big_endian (c_val c) = s -> s + 1 < 256 ^ nlen (c_val c) -> bt_name t = Some full ->
  exists c', ckey c' = (50, c_val c') /\ nlen (c_val c') = nlen (c_val c) /\ big_endian (c_val c') = s + 1 /\
    ((forall f, bt_final t = Some f -> comp_shortest f /\ small_comp f /\ c_type f < 2 ^ 31 /\ ~ key_lt (ckey f) (ckey c')) ->
       exists n, bf_fetch dconv (Some o) t = BfExpress n false false /\ n_comps n = base ++ [c']) /\
    (forall f, bt_final t = Some f -> comp_shortest f -> small_comp f -> c_type f < 2 ^ 31 -> key_lt (ckey f) (ckey c') -> bf_fetch dconv (Some o) t = BfInner).
Proof.
  intros dconv o t full base c s E L T L8 B Lt Nt. destruct (succ_seg c s T B Lt) as (c' & Sc & T' & Ln & B' & Sh).
  specialize (Sh ltac:(unfold two64; lia)). exists c'. assert (Sm : small_comp c') by (unfold small_comp; change (2 ^ 31) with 2147483648; lia).
  assert (T31 : c_type c' < 2 ^ 31) by (rewrite T'; reflexivity).
  splits; auto; [unfold ckey; now rewrite T'| |].
  - intro Hf. unfold bf_fetch. rewrite Nt. destruct (nm_at_back full base c [] (-1) E eq_refl) as (_ & ->). rewrite Sc. unfold bf_next.
    assert (P : n_comps (nm_append c' (nm_getPrefix (-1) full)) = base ++ [c']).
    { unfold nm_append. cbn [n_comps]. rewrite (prefix_k full base [c] (-1) E L eq_refl); [reflexivity|discriminate]. }
    destruct (bt_final t) as [f|]; [|eauto]. destruct (Hf f eq_refl) as (Fs & Fm & Ft & NK).
    assert ((0 <? comp_compare c' f)%Z = false) as ->; [|eauto].
    destruct (key_lt_tri (ckey c') (ckey f)) as [K|[K|K]]; [| |contradiction].
    + destruct (comp_compare_lt c' f) as (X & _); auto. lia.
    + rewrite comp_compare_eq; auto.
  - intros f Hf Fs Fm Ft K. unfold bf_fetch. rewrite Nt. destruct (nm_at_back full base c [] (-1) E eq_refl) as (_ & ->). rewrite Sc. unfold bf_next. rewrite Hf.
    destruct (comp_compare_lt f c') as (_ & X); auto. destruct (0 <? comp_compare c' f)%Z eqn:Q; [reflexivity|lia].
Qed.
Print Assumptions C95_next_partial.
(* A segment that continues the validation: it has a segment number (zero when zero was expected), its name and last segment are remembered,
   all its elements are certificates and are added to the cache, and the certificate handed on is one of the cache that the lookup gives for the request.
   Missing for the full claim: every answer leads to such a step, another request or the inner fetcher; C95_missing_refuted, C95_nocert_refuted. *)
Theorem C95_continue_partial : forall dconv econv find zero b t cache t' cache' c (asked : data -> Prop),
  (forall l x, find l = Some x -> In x l /\ asked x) ->
  bf_data dconv econv find zero b t cache = (t', cache', BfContinue c) ->
  (exists base s, n_comps (d_name b) = base ++ [s] /\ isKind dconv KSegment s = true /\ (zero = true -> toKind dconv KSegment s = Ok 0)) /\
  bt_name t' = Some (d_name b) /\ (forall f, mi_final (d_meta b) = Some f -> bt_final t' = Some f) /\ (mi_final (d_meta b) = None -> bt_final t' = bt_final t) /\
  (exists es cs, parseValue (c_val (d_content b)) = Ok es /\ Forall2 is_cert es cs /\ cache' = cache ++ cs) /\ In c cache' /\ asked c.
Proof.
  intros dconv econv find zero b t cache t' cache' c asked HF H. unfold bf_data in H.
  destruct (snoc_or _ (n_comps (d_name b))) as [E|(a & x & E)].
  { unfold nm_get, nm_index, nm_size, nlen in H. rewrite E in H. cbn in H. congruence. }
  destruct (nm_at_back (d_name b) a x [] (-1) E eq_refl) as (_ & G). rewrite G in H. destruct (isKind dconv KSegment x) eqn:K; cbn [negb] in H; [|congruence].
  destruct (if zero then _ else _) as [s|] eqn:Z; [|congruence]. destruct (s =? 0) eqn:S0; cbn [negb] in H.
  2: { destruct (fromKind econv KSegment 0); [|congruence]. unfold bf_next in H. destruct (bt_final t); [destruct (_ <? _)%Z|]; congruence. }
  apply N.eqb_eq in S0. subst s. destruct (parseValue (c_val (d_content b))) as [es|] eqn:P; [|congruence].
  destruct (bf_certs es) as [cs r] eqn:C. destruct r as [y|]; [congruence|]. destruct (find (cache ++ cs)) as [d|] eqn:Fd; [|congruence].
  injection H as <- <- <-. destruct (HF _ _ Fd) as (I1 & I2).
  assert (FC : Forall2 is_cert es cs).
  { clear -C. revert cs C. induction es as [|e es IH]; intros cs C; cbn [bf_certs] in C; [injection C as <-; constructor|].
    destruct (cert_of e) as [d|] eqn:D; [|discriminate]. destruct (bf_certs es) as [cs1 r1] eqn:C1. injection C as <- ->. constructor; auto. now apply cert_of_iff. }
  cbn [bt_name bt_final]. splits; auto.
  - exists a, x. splits; auto. intros ->. exact Z.
  - intros f ->. reflexivity.
  - intros ->. reflexivity.
  - exists es, cs. auto.
Qed.
Print Assumptions C95_continue_partial.
(* Conversely a segment, the first one with number zero, whose elements are all certificates continues the validation with what the lookup gives, if it gives one. *)
Theorem C95_accept : forall dconv econv find zero b t cache base s es cs c, n_comps (d_name b) = base ++ [s] -> isKind dconv KSegment s = true ->
  (zero = true -> toKind dconv KSegment s = Ok 0) -> parseValue (c_val (d_content b)) = Ok es -> Forall2 is_cert es cs -> find (cache ++ cs) = Some c ->
  exists t', bf_data dconv econv find zero b t cache = (t', cache ++ cs, BfContinue c) /\ bt_name t' = Some (d_name b) /\
    bt_final t' = (match mi_final (d_meta b) with Some f => Some f | None => bt_final t end).
Proof.
  intros dconv econv find zero b t cache base s es cs c E K Z P FC Fd. destruct (nm_at_back (d_name b) base s [] (-1) E eq_refl) as (_ & G).
  unfold bf_data. rewrite G, K. cbn [negb]. assert ((if zero then toKind dconv KSegment s else Ok 0) = Ok 0) as -> by (destruct zero; auto).
  cbn [N.eqb negb]. rewrite P. assert (bf_certs es = (cs, None)) as ->.
  { clear -FC. induction FC as [|e d es cs H FC IH]; auto. cbn [bf_certs]. apply cert_of_iff in H. now rewrite H, IH. }
  rewrite Fd. eexists. split; [reflexivity|]. auto.
Qed.
Print Assumptions C95_accept.
(* the answer without a segment number goes to the inner fetcher; a segment other than zero where zero is expected leads to the request for segment zero *)
Theorem C95_redirect : forall dconv econv find b t cache base s, n_comps (d_name b) = base ++ [s] ->
  (isKind dconv KSegment s = false -> forall zero, bf_data dconv econv find zero b t cache = (t, cache, BfInner)) /\
  (forall k z, nm_size (d_name b) < 2 ^ 64 -> isKind dconv KSegment s = true -> toKind dconv KSegment s = Ok k -> k <> 0 -> bt_final t = None -> fromKind econv KSegment 0 = Ok z ->
     exists n, bf_data dconv econv find true b t cache = (t, cache, BfExpress n false false) /\ n_comps n = base ++ [z]).
Proof.
  intros dconv econv find b t cache base s E. destruct (nm_at_back (d_name b) base s [] (-1) E eq_refl) as (_ & G). unfold bf_data. rewrite G. split.
  - intros -> zero. reflexivity.
  - intros k z L -> Tk Nk Nf Fz. cbn [negb]. rewrite Tk. apply N.eqb_neq in Nk. rewrite Nk, Fz. cbn [negb]. unfold bf_next. rewrite Nf. eexists. split; [reflexivity|].
    unfold nm_append. cbn [n_comps]. rewrite (prefix_k (d_name b) base [s] (-1) E L eq_refl); [reflexivity|discriminate].
Qed.
Print Assumptions C95_redirect.
(* After segment 255 the request is for a two-octet zero, that is segment 0 again in an encoding no producer uses, although the bundle goes on to segment 300. *)
Definition seg (n : N) : comp := mkComp 50 None (encNNI n).
Theorem C95_successor_refuted : exists o full n s, n_comps full = [kc (str "B"); seg 255] /\
  bf_fetch TYPED (Some o) (mkBt (Some full) (Some (seg 300))) = BfExpress n false false /\ n_comps n = [kc (str "B"); s] /\ ckey s = (50, [x00; x00]) /\ toKind TYPED KSegment s = Ok 0 /\
  fromKind TYPED KSegment 256 <> Ok s.
Proof. exists ex_name, (nm_of [kc (str "B"); seg 255]). do 2 eexists. split; [reflexivity|]. split; [vm_compute; reflexivity|]. split; [vm_compute; reflexivity|]. split; [vm_compute; reflexivity|]. split; [vm_compute; reflexivity|]. vm_compute. discriminate. Qed.
Print Assumptions C95_successor_refuted.
(* A well-formed segment whose certificates do not include the one asked for makes the fetcher dereference a null pointer. *)
Definition ex_seg (content : bytes) : data := mkData (nm_of [kc (str "B"); seg 0]) mi_empty (mkComp 21 None content) ex_si (comp_of_elem (mkBlock 23 (str "sig"))) None nm_empty.
Definition by_name (n : name) (l : list data) : option data := List.find (fun d => nm_equals (d_name d) n) l.
Theorem C95_missing_refuted : exists b asked, (exists e, parseValue (c_val (d_content b)) = Ok [e] /\ is_cert e ex_cert) /\
  snd (bf_data TYPED TYPED (by_name asked) true b (mkBt None None) []) = BfThrow EUb.
Proof.
  exists (ex_seg ex_cert_wire), ex_name. split; [|vm_compute; reflexivity]. destruct ex_cert_is as (e & F & T & C). exists e. split; [|exact C].
  vm_compute in F. injection F as <-. vm_compute. reflexivity.
Qed.
Print Assumptions C95_missing_refuted.
(* An element that is not a certificate makes an exception leave the callback: the request is never concluded, although the certificate asked for is there too. *)
Theorem C95_nocert_refuted : exists b, (exists e1 e2, parseValue (c_val (d_content b)) = Ok [e1; e2] /\ is_cert e1 ex_cert) /\
  snd (bf_data TYPED TYPED (by_name ex_cname) true b (mkBt None None) []) = BfThrow ETlv.
Proof.
  exists (ex_seg (ex_cert_wire ++ tlv_enc 128 (str "zz"))). split; [|vm_compute; reflexivity]. destruct ex_cert_is as (e & F & T & C). exists e. eexists. split; [|exact C].
  vm_compute in F. injection F as <-. vm_compute. reflexivity.
Qed.
Print Assumptions C95_nocert_refuted.
Example C95_ex :
  snd (bf_data TYPED TYPED (by_name ex_cname) true (ex_seg ex_cert_wire) (mkBt None None) []) = BfContinue ex_cert /\
  (exists n, bf_fetch TYPED (Some (nm_of [kc (str "D"); seg 7; mkComp 1 None (repeat x00 32)])) (mkBt None None) = BfExpress n true true /\ nkey n = [(8, str "D"); (8, str "_BUNDLE"); (8, [x00])]) /\
  (exists n, bf_fetch TYPED (Some ex_name) (mkBt (Some (nm_of [kc (str "B"); seg 3])) (Some (seg 4))) = BfExpress n false false /\ nkey n = [(8, str "B"); (50, [x04])]) /\
  bf_fetch TYPED (Some ex_name) (mkBt (Some (nm_of [kc (str "B"); seg 4])) (Some (seg 4))) = BfInner /\
  (exists n, snd (bf_data TYPED TYPED (by_name ex_cname) true (mkData (nm_of [kc (str "B"); seg 9]) mi_empty (mkComp 21 None []) ex_si (comp_of_elem (mkBlock 23 [])) None nm_empty) (mkBt None None) []) = BfExpress n false false /\ nkey n = [(8, str "B"); (50, [x00])]).
Proof.
  split; [vm_compute; reflexivity|]. split; [eexists; split; vm_compute; reflexivity|]. split; [eexists; split; vm_compute; reflexivity|].
  split; [vm_compute; reflexivity|]. eexists; split; vm_compute; reflexivity.
Qed.
Example C95_ex_find : forall l x, by_name ex_cname l = Some x -> In x l /\ nm_equals (d_name x) ex_cname = true.
Proof. intros l x H. apply find_some in H. exact H. Qed.
