(* C52: the command-Interest policy.  Specification: S_IntPolicy.  A history is any list of checks, successes and failures of validations, which may
   overlap; the observations of a history are ObPass (the policy lets the Interest go on to the inner policy), ObRefuse, ObThrow (an exception leaves
   Validator::validate), ObDone (the Interest was accepted: its validation succeeded) and ObDrop. *)
From Coq Require Import List ZArith Lia String.
From Verif Require Import Base BaseLemmas M_Tlv S_Tlv M_Str M_Name S_Name M_Packet M_Ims M_IntPolicy S_IntPolicy P_IntPolicy P_CmdPolicy.
Import ListNotations.
Open Scope list_scope.
Open Scope Z_scope.

(* Only a command is let through: an Interest that names a key and carries a timestamp, and the timestamp is within the grace period (taken as 0
   if negative) of the system clock. *)
Theorem C52_grace : forall o l s t id sys st k ts, cmd_run o l = Ok (s, t) -> In (ObPass id sys st (k, ts)) t ->
  (exists i, In (EvCheck sys st i) l /\ is_command i k ts) /\ sys - Z.max (co_grace o) 0 <= ts <= sys + Z.max (co_grace o) 0.
Proof. intros. split; [eapply cmd_command; eauto|eapply cmd_grace; eauto]. Qed.
Print Assumptions C52_grace.

(* After a command of key k with timestamp ts was accepted at u, a command of that key passes only with a later timestamp, if
   - since then, commands of that key were validated one by one: those accepted had been checked after the first one was accepted,
   - fewer than maxRecords other keys had commands accepted since (any number, if maxRecords is negative), and
   - the record lifetime has not elapsed. *)
Theorem C52_increasing : forall o l s t1 t2 t3 id u k ts id' sys st ts',
  cmd_run o l = Ok (s, t1 ++ ObDone id u (k, ts) :: t2 ++ ObPass id' sys st (k, ts') :: t3) ->
  in_order (t1 ++ ObDone id u (k, ts) :: t2 ++ ObPass id' sys st (k, ts') :: t3) ->
  one_by_one ckey k t2 -> few_others ckey k (co_max o) t2 -> st < u + co_life o -> ts < ts'.
Proof. exact cmd_increasing. Qed.
Print Assumptions C52_increasing.

(* No replay: if records live longer than twice the grace period (as with the default options) and the two clocks run alike, elapsed lifetimes do not
   matter: no command is accepted twice. *)
Theorem C52_no_replay : forall o l s t1 t2 t3 id u k ts id' sys st ts' off,
  cmd_run o l = Ok (s, t1 ++ ObDone id u (k, ts) :: t2 ++ ObPass id' sys st (k, ts') :: t3) ->
  in_order (t1 ++ ObDone id u (k, ts) :: t2 ++ ObPass id' sys st (k, ts') :: t3) ->
  (forall i sy z a, In (ObPass i sy z a) (t1 ++ ObDone id u (k, ts) :: t2 ++ ObPass id' sys st (k, ts') :: t3) -> sy = z + off) ->
  2 * Z.max (co_grace o) 0 < co_life o -> one_by_one ckey k t2 -> few_others ckey k (co_max o) t2 -> ts < ts'.
Proof. exact cmd_no_replay. Qed.
Print Assumptions C52_no_replay.

(* A command within the grace period and later than every accepted command of its key is let through, whatever happened before. *)
Theorem C52_accept : forall o l s t sys st i k ts, cmd_run o l = Ok (s, t) -> small (co_grace o) -> small (co_life o) -> small sys -> small st ->
  is_command i k ts -> sys - Z.max (co_grace o) 0 <= ts <= sys + Z.max (co_grace o) 0 -> (forall id u ts2, In (ObDone id u (k, ts2)) t -> ts2 < ts) ->
  exists s' id, cmd_run o (l ++ [EvCheck sys st i]) = Ok (s', t ++ [ObPass id sys st (k, ts)]).
Proof. exact cmd_accept. Qed.
Print Assumptions C52_accept.

(* The table: one record per key; after the check of a command at most maxRecords, plus the validations that ended since; every record is younger than
   the lifetime at the last check. *)
Theorem C52_bound : forall o l1 sys st i l2 s t k ts, cmd_run o (l1 ++ EvCheck sys st i :: l2) = Ok (s, t) -> is_command i k ts -> Forall no_check l2 -> in_order t ->
  NoDup (map cr_key (ps_tab s)) /\ (0 <= co_max o -> Z.of_N (nlen (ps_tab s)) <= co_max o + Z.of_N (nlen l2)) /\
  forall r, In r (ps_tab s) -> st - co_life o < cr_ref r \/ exists id, In (EvDone id (cr_ref r)) l2.
Proof. exact cmd_bound. Qed.
Print Assumptions C52_bound.

(* With clock readings, spans and timestamps far from the limits of 64-bit nanoseconds nothing is undefined, and only tlv::Error may leave. *)
Theorem C52_defined : forall o l, small (co_grace o) -> small (co_life o) -> (forall e, In e l -> small_ev e /\ stamp_fits e) ->
  exists s t, cmd_run o l = Ok (s, t) /\ forall sys st e, In (ObThrow sys st e) t -> e = ETlv.
Proof. exact cmd_defined. Qed.
Print Assumptions C52_defined.

(* ---- a history ---- *)
Definition dflt : copts := mkCO 120000000000 1000 3600000000000.
Definition minute : Z := 60000000000.
Definition kn (s : String.string) : name := nm_of [comp_ofString (str s)].
Definition sig (k : String.string) (ms : N) : sint := V03 (si_setNumber tSignatureTime (Some ms) (si_of 1 (Some (mkKL (KlName (kn k)) None)))).
(* the v0.2 form: /cmd/<timestamp>/<nonce>/<SignatureInfo>/<SignatureValue> *)
Definition old (k : String.string) (ms : N) : sint :=
  match si_encode SiData (si_of 1 (Some (mkKL (KlName (kn k)) None))) with
  | Ok (e, _) => V02 (nm_of [comp_ofString (str "cmd"); mkComp 8 None (encNNI ms); comp_ofString (str "nonce123"); comp_ofString (e_wire e); comp_ofString (str "sig")])
  | Err _ => V02 (nm_of [])
  end.
Definition now0 : Z := 1700000000000000000.
Definition at_ (m : Z) (i : sint) : iev := EvCheck (now0 + m * minute) (m * minute) i.
Definition C52_hist : list iev :=
  [ at_ 1 (sig "k" 1700000060000); at_ 1 (old "j" 1700000060000); EvDone 0 (1 * minute); EvDone 1 (1 * minute);
    at_ 2 (sig "k" 1700000060000); at_ 2 (sig "k" 1700000090000); EvDone 2 (2 * minute); at_ 3 (old "j" 1700000060000); at_ 3 (sig "k" 1699999000000); at_ 3 (V03 (si_of 0 None)) ].
Definition kk (s : String.string) : list key := nkey (kn s).
Example C52_ex : exists s, cmd_run dflt C52_hist = Ok (s,
  [ ObPass 0 (now0 + 1 * minute) (1 * minute) (kk "k", 1700000060000000000); ObPass 1 (now0 + 1 * minute) (1 * minute) (kk "j", 1700000060000000000);
    ObDone 0 (1 * minute) (kk "k", 1700000060000000000); ObDone 1 (1 * minute) (kk "j", 1700000060000000000);
    ObRefuse (now0 + 2 * minute) (2 * minute) (sig "k" 1700000060000); ObPass 2 (now0 + 2 * minute) (2 * minute) (kk "k", 1700000090000000000);
    ObDone 2 (2 * minute) (kk "k", 1700000090000000000); ObRefuse (now0 + 3 * minute) (3 * minute) (old "j" 1700000060000);
    ObRefuse (now0 + 3 * minute) (3 * minute) (sig "k" 1699999000000); ObRefuse (now0 + 3 * minute) (3 * minute) (V03 (si_of 0 None)) ]).
Proof. eexists. vm_compute. reflexivity. Qed.
(* it meets the hypotheses of C52_increasing and C52_no_replay *)
Lemma order_check : forall A (t : list (iobs A)), Sorting.Sorted.StronglySorted (fun x y => forall a b, ob_steady x = Some a -> ob_steady y = Some b -> a <= b) t -> in_order t.
Proof.
  intros A t H t1 x t2 y t3 a b -> X Y. induction t1 as [|z t1 IH]; cbn [app] in H; [|inversion H; auto]. inversion H as [|? ? _ F]; subst. rewrite Forall_forall in F.
  eapply F; eauto. apply in_or_app. right. now left.
Qed.
Example C52_ex_hyp : exists s t1 t2 t3, cmd_run dflt C52_hist = Ok (s, t1 ++ ObDone 0 (1 * minute) (kk "k", 1700000060000000000) :: t2 ++ ObPass 2 (now0 + 2 * minute) (2 * minute) (kk "k", 1700000090000000000) :: t3) /\
  in_order (t1 ++ ObDone 0 (1 * minute) (kk "k", 1700000060000000000) :: t2 ++ ObPass 2 (now0 + 2 * minute) (2 * minute) (kk "k", 1700000090000000000) :: t3) /\
  one_by_one ckey (kk "k") t2 /\ few_others ckey (kk "k") (co_max dflt) t2 /\ 2 * minute < 1 * minute + co_life dflt /\ 2 * Z.max (co_grace dflt) 0 < co_life dflt.
Proof.
  destruct C52_ex as [s H]. exists s. eexists [_; _], [_; _], [_; _; _; _]. split; [exact H|]. splits.
  - apply order_check. repeat (constructor; [|repeat constructor; cbn [ob_steady]; intros a b [= <-] [= <-]; vm_compute; discriminate]). constructor.
  - intros id u a [[= <- <- <-]|[X|[]]] E; [|discriminate]. vm_compute in E. discriminate.
  - right. exists [kk "j"]. split; [reflexivity|]. intros id u a k2 [[= <- <- <-]|[X|[]]] E Ne; [|discriminate]. injection E as <-. now left.
  - reflexivity.
  - reflexivity.
Qed.
Example C52_ex_sane : small (co_grace dflt) /\ small (co_life dflt) /\ forall e, In e [at_ 1 (sig "k" 1700000060000); EvDone 0 minute] -> small_ev e /\ stamp_fits e.
Proof.
  split; [split; vm_compute; discriminate|]. split; [split; vm_compute; discriminate|]. intros e [<-|[<-|[]]]; (split; [repeat split; vm_compute; discriminate|]); [|exact I].
  intros n (v & F & Nn). apply custom_some in F as (b & G & <-). vm_compute in G. injection G as <-. destruct Nn as [_ ->]. eexists. apply ms_time_iff; vm_compute; reflexivity.
Qed.

(* ---- what does not hold ---- *)
(* Validations that overlap: a command is accepted twice, since its timestamp is recorded only when its validation has succeeded (and after the
   application's success callback has run, so also if the callback validates the command again).  All clock readings are the same. *)
Theorem C52_overlap_refuted : exists l s k ts u, cmd_run dflt l = Ok (s, [ObPass 0 now0 u (k, ts); ObPass 1 now0 u (k, ts); ObDone 0 u (k, ts); ObDone 1 u (k, ts)]).
Proof.
  exists [at_ 0 (sig "k" 1700000000000); at_ 0 (sig "k" 1700000000000); EvDone 0 0; EvDone 1 0]. eexists _, (kk "k"), 1700000000000000000, 0. vm_compute. reflexivity.
Qed.
Print Assumptions C52_overlap_refuted.
(* And the recorded timestamp may go back, so that afterwards, with no validation pending, accepted commands can be replayed: timestamps 5 and 7
   pass, 7 is accepted, then 5 is accepted; then 6 and 7 (again) pass one by one. *)
Theorem C52_regress_refuted : exists l s k u, let ms n := now0 + n * 1000000 in cmd_run dflt l = Ok (s,
  [ ObPass 0 now0 u (k, ms 5); ObPass 1 now0 u (k, ms 7); ObDone 1 u (k, ms 7); ObDone 0 u (k, ms 5); ObPass 2 now0 u (k, ms 6); ObDone 2 u (k, ms 6);
    ObPass 3 now0 u (k, ms 7); ObDone 3 u (k, ms 7) ]).
Proof.
  exists [at_ 0 (sig "k" 1700000000005); at_ 0 (sig "k" 1700000000007); EvDone 1 0; EvDone 0 0; at_ 0 (sig "k" 1700000000006); EvDone 2 0; at_ 0 (sig "k" 1700000000007); EvDone 3 0].
  eexists _, (kk "k"), 0. vm_compute. reflexivity.
Qed.
Print Assumptions C52_regress_refuted.
(* The options' documentation has the grace period apply to the first command of a key only; in fact a command later than the last accepted one of its
   key is refused if it is outside of the grace period. *)
Theorem C52_not_only_first_refuted : exists l s k ts t1 t2 t3 ts' i sys st, cmd_run dflt l = Ok (s, t1 ++ ObDone 0 t2 (k, ts) :: t3 ++ [ObRefuse sys st i]) /\
  is_command i k ts' /\ ts < ts' /\ st < t2 + co_life dflt.
Proof.
  exists [at_ 0 (sig "k" 1700000000000); EvDone 0 0; at_ 30 (sig "k" 1700000060000)]. eexists _, (kk "k"), 1700000000000000000, [_], 0, [], 1700000060000000000, _, _, _.
  split; [vm_compute; reflexivity|]. split; [apply parseCommand_iff; vm_compute; reflexivity|]. split; vm_compute; reflexivity.
Qed.
Print Assumptions C52_not_only_first_refuted.
(* A SignatureTime that is not a number (here one of three octets, in a SignatureInfo that decodes) makes an exception leave Validator::validate instead
   of a failure being reported. *)
Theorem C52_malformed_refuted : exists l s b si, l = [EvCheck now0 0 (V03 si)] /\ si_decode SiInterest b = (si, None) /\ cmd_run dflt l = Ok (s, [ObThrow now0 0 ETlv]).
Proof.
  eexists _, _, (mkBlock 44 (tlv_nni 27 1 ++ tlv_enc 28 (tlv_enc 7 (tlv_enc 8 (str "k"))) ++ tlv_enc 40 (str "abc"))), _.
  split; [reflexivity|]. split; [vm_compute; reflexivity|]. vm_compute. reflexivity.
Qed.
Print Assumptions C52_malformed_refuted.
(* A timestamp beyond the year 2262 overflows when it is converted to the clock's nanoseconds. *)
Theorem C52_overflow_refuted : exists b si, si_decode SiInterest b = (si, None) /\ cmd_run dflt [EvCheck now0 0 (V03 si)] = Err EUb.
Proof.
  eexists (mkBlock 44 (tlv_nni 27 1 ++ tlv_enc 28 (tlv_enc 7 (tlv_enc 8 (str "k"))) ++ tlv_nni 40 10000000000000)), _.
  split; [vm_compute; reflexivity|]. vm_compute. reflexivity.
Qed.
Print Assumptions C52_overflow_refuted.
