(* C51: the signed-Interest policy.  Specification: S_IntPolicy.  Histories and observations are those of C52 (T_CmdPolicy): any list of checks,
   successes and failures of validations, which may overlap.  A value Some v in an observation holds the key, SignatureTime, SignatureSeqNum and
   SignatureNonce of a v0.3 signed Interest (is_signed); None stands for a v0.2 signed Interest, which the policy hands to the inner policy unchecked. *)
From Coq Require Import List ZArith Lia String.
From Verif Require Import Base BaseLemmas M_Tlv S_Tlv M_Str M_Name S_Name M_Packet M_Ims M_IntPolicy S_IntPolicy P_IntPolicy P_CmdPolicy P_SgnPolicy P_SgnTrace T_CmdPolicy.
Import ListNotations.
Open Scope list_scope.
Open Scope Z_scope.

(* What is let through is a v0.2 Interest, or a v0.3 one that names a key and has each field whose check is enabled; its timestamp, if checked, is within
   the grace period (taken as 0 if negative) of the system clock. *)
Theorem C51_checked : forall o l s t id sys st a, sgn_run o l = Ok (s, t) -> In (ObPass id sys st a) t ->
  (a = None /\ exists n, In (EvCheck sys st (V02 n)) l) \/
  exists v si, a = Some v /\ In (EvCheck sys st (V03 si)) l /\ is_signed si v /\
    (so_ts o = true -> exists ts, sv_ts v = Some ts /\ Z.abs (sys - ts) <= Z.max (so_grace o) 0) /\
    (so_seq o = true -> sv_seq v <> None) /\ (so_nonce o = true -> sv_nonce v <> None).
Proof.
  intros o l s t id sys st a H I. destruct (sgn_checked _ _ _ _ _ _ _ _ H I) as [X|(v & si & E & J & V & (A & B & C))]; [auto|]. right. exists v, si. splits; auto.
  - intro O. destruct (A O) as (ts & T & G & _). eauto.
  - intro O. destruct (B O) as (n & T & _). congruence.
  - intro O. destruct (C O) as (n & T & _). congruence.
Qed.
Print Assumptions C51_checked.

(* After an Interest of a key with timestamp ts was accepted at u, an Interest of that key passes only with a later timestamp, if
   - since then, Interests of that key were validated one by one: those accepted had been checked after the first one was accepted,
   - fewer than maxRecords other keys had Interests accepted since, and maxRecords is not 0, and
   - the first one was accepted later, by the steady clock, than all before it.  (The last two do not matter if maxRecords is negative.) *)
Theorem C51_ts_increasing : forall o l s t1 t2 t3 id u v id' sys st v' ts,
  sgn_run o l = Ok (s, t1 ++ ObDone id u (Some v) :: t2 ++ ObPass id' sys st (Some v') :: t3) ->
  in_order (t1 ++ ObDone id u (Some v) :: t2 ++ ObPass id' sys st (Some v') :: t3) -> sv_key v' = sv_key v -> so_ts o = true -> sv_ts v = Some ts ->
  so_max o <> 0 -> so_max o < 0 \/ all_before u t1 -> one_by_one skey (sv_key v) t2 -> few_others skey (sv_key v) (so_max o) t2 ->
  exists ts', sv_ts v' = Some ts' /\ ts < ts'.
Proof. exact sgn_ts_increasing. Qed.
Print Assumptions C51_ts_increasing.
(* The same for sequence numbers. *)
Theorem C51_seq_increasing : forall o l s t1 t2 t3 id u v id' sys st v' n,
  sgn_run o l = Ok (s, t1 ++ ObDone id u (Some v) :: t2 ++ ObPass id' sys st (Some v') :: t3) ->
  in_order (t1 ++ ObDone id u (Some v) :: t2 ++ ObPass id' sys st (Some v') :: t3) -> sv_key v' = sv_key v -> so_seq o = true -> sv_seq v = Some n ->
  so_max o <> 0 -> so_max o < 0 \/ all_before u t1 -> one_by_one skey (sv_key v) t2 -> few_others skey (sv_key v) (so_max o) t2 ->
  exists n', sv_seq v' = Some n' /\ (n < n')%N.
Proof. exact sgn_seq_increasing. Qed.
Print Assumptions C51_seq_increasing.
(* Nonces do not repeat within the window: fewer than maxNonceRecords Interests of the key accepted in between (any number, if negative).  Interests of the
   key may be validated side by side, except that none with the same nonce may be accepted while the first one is being validated. *)
Theorem C51_nonce : forall o l s ta tb t2 t3 id sys0 st0 u v id' sys st v' n,
  sgn_run o l = Ok (s, ta ++ ObPass id sys0 st0 (Some v) :: tb ++ ObDone id u (Some v) :: t2 ++ ObPass id' sys st (Some v') :: t3) ->
  in_order (ta ++ ObPass id sys0 st0 (Some v) :: tb ++ ObDone id u (Some v) :: t2 ++ ObPass id' sys st (Some v') :: t3) ->
  sv_key v' = sv_key v -> so_nonce o = true -> sv_nonce v = Some n -> (forall i z w, In (ObDone i z (Some w)) tb -> sv_key w = sv_key v -> sv_nonce w <> Some n) ->
  so_max o <> 0 -> so_max o < 0 \/ all_before u (ta ++ tb) -> few_others skey (sv_key v) (so_max o) t2 ->
  so_maxNonce o < 0 \/ accepted_of skey (sv_key v) t2 < so_maxNonce o ->
  exists n', sv_nonce v' = Some n' /\ n' <> n.
Proof. exact sgn_nonce. Qed.
Print Assumptions C51_nonce.

(* An Interest whose checked fields are new for its key, and whose timestamp is within the grace period, passes whatever happened before. *)
Theorem C51_accept : forall o l s t sys st si v, sgn_run o l = Ok (s, t) -> small (so_grace o) -> small sys -> is_signed si v ->
  (so_ts o = true -> exists ts, sv_ts v = Some ts /\ Z.abs (sys - ts) <= Z.max (so_grace o) 0 /\ small ts /\
     forall id u w y, In (ObDone id u (Some w)) t -> sv_key w = sv_key v -> sv_ts w = Some y -> y < ts) ->
  (so_seq o = true -> exists n, sv_seq v = Some n /\ forall id u w y, In (ObDone id u (Some w)) t -> sv_key w = sv_key v -> sv_seq w = Some y -> (y < n)%N) ->
  (so_nonce o = true -> exists n, sv_nonce v = Some n /\ forall id u w, In (ObDone id u (Some w)) t -> sv_key w = sv_key v -> sv_nonce w <> Some n) ->
  exists s' id, sgn_run o (l ++ [EvCheck sys st (V03 si)]) = Ok (s', t ++ [ObPass id sys st (Some v)]).
Proof. exact sgn_accept. Qed.
Print Assumptions C51_accept.

(* At any time there is one record per key, at most maxRecords records, and in each at most maxNonceRecords nonces, all different. *)
Theorem C51_bound : forall o l s t, sgn_run o l = Ok (s, t) ->
  NoDup (map sr_key (ps_tab s)) /\ (0 <= so_max o -> Z.of_N (nlen (ps_tab s)) <= so_max o) /\
  forall r, In r (ps_tab s) -> NoDup (sr_nonces r) /\ (0 <= so_maxNonce o -> Z.of_N (nlen (sr_nonces r)) <= so_maxNonce o).
Proof. intros o l s t H. apply sgn_tab in H as [A _ B C]. splits; auto. Qed.
Print Assumptions C51_bound.

(* With clock readings and timestamps far from the limits of 64-bit nanoseconds nothing is undefined, and only tlv::Error may leave. *)
Theorem C51_defined : forall o l, (forall e, In e l -> small_ev e /\ stamp_small e) ->
  exists s t, sgn_run o l = Ok (s, t) /\ forall sys st e, In (ObThrow sys st e) t -> e = ETlv.
Proof. exact sgn_defined. Qed.
Print Assumptions C51_defined.

(* ---- a history ---- *)
Definition opts3 : sopts := mkSO true 120000000000 true true 2 2.
Definition sg (k : String.string) (ms seq : N) (n : String.string) : sint :=
  V03 (si_setNumber tSignatureSeqNum (Some seq) (si_setNumber tSignatureTime (Some ms) (si_setNonce (Some (str n)) (si_of 1 (Some (mkKL (KlName (kn k)) None)))))).
Definition sv (k : String.string) (ms : Z) (seq : N) (n : String.string) : option svals := Some (mkSVals (kk k) (Some (ms * 1000000)) (Some seq) (Some (str n))).
Definition C51_hist : list iev :=
  [ at_ 1 (sg "k" 1700000060000 1 "a"); EvDone 0 (1 * minute); at_ 2 (sg "j" 1700000060000 9 "a"); EvDone 1 (2 * minute);
    at_ 2 (sg "k" 1700000060000 2 "b"); at_ 2 (sg "k" 1700000070000 1 "b"); at_ 2 (sg "k" 1700000070000 2 "a"); at_ 2 (sg "k" 1700000070000 2 "b"); EvDone 2 (2 * minute);
    at_ 3 (sg "k" 1699999000000 3 "c"); at_ 3 (sg "k" 1700000080000 3 "c") ].
Example C51_ex : exists s, sgn_run opts3 C51_hist = Ok (s,
  [ ObPass 0 (now0 + 1 * minute) (1 * minute) (sv "k" 1700000060000 1 "a"); ObDone 0 (1 * minute) (sv "k" 1700000060000 1 "a");
    ObPass 1 (now0 + 2 * minute) (2 * minute) (sv "j" 1700000060000 9 "a"); ObDone 1 (2 * minute) (sv "j" 1700000060000 9 "a");
    ObRefuse (now0 + 2 * minute) (2 * minute) (sg "k" 1700000060000 2 "b"); ObRefuse (now0 + 2 * minute) (2 * minute) (sg "k" 1700000070000 1 "b");
    ObRefuse (now0 + 2 * minute) (2 * minute) (sg "k" 1700000070000 2 "a"); ObPass 2 (now0 + 2 * minute) (2 * minute) (sv "k" 1700000070000 2 "b");
    ObDone 2 (2 * minute) (sv "k" 1700000070000 2 "b");
    ObRefuse (now0 + 3 * minute) (3 * minute) (sg "k" 1699999000000 3 "c"); ObPass 3 (now0 + 3 * minute) (3 * minute) (sv "k" 1700000080000 3 "c") ]).
Proof. eexists. vm_compute. reflexivity. Qed.
(* it meets the hypotheses of the theorems: with the first Interest and the last *)
Example C51_ex_hyp : exists s t2, let v := mkSVals (kk "k") (Some 1700000060000000000) (Some 1%N) (Some (str "a")) in
  let p0 := ObPass 0 (now0 + 1 * minute) (1 * minute) (Some v) in let p := ObPass 3 (now0 + 3 * minute) (3 * minute) (sv "k" 1700000080000 3 "c") in
  sgn_run opts3 C51_hist = Ok (s, [p0] ++ ObDone 0 (1 * minute) (Some v) :: t2 ++ p :: []) /\
  in_order ([p0] ++ ObDone 0 (1 * minute) (Some v) :: t2 ++ p :: []) /\ all_before (1 * minute) [p0] /\ one_by_one skey (kk "k") t2 /\
  few_others skey (kk "k") (so_max opts3) t2 /\ accepted_of skey (kk "k") t2 < so_maxNonce opts3.
Proof.
  destruct C51_ex as [s H]. exists s. eexists [_; _; _; _; _; _; _; _]. cbv zeta. split; [exact H|]. splits.
  - apply order_check. cbn [app]. repeat (constructor; [|repeat constructor; cbn [ob_steady]; intros a b [= <-] [= <-]; vm_compute; discriminate]). constructor.
  - intros id u a [X|[]]. discriminate.
  - intros id u a [X|[X|[X|[X|[X|[X|[X|[X|[]]]]]]]]] E; try discriminate X.
    + injection X as <- <- <-. vm_compute in E. discriminate.
    + injection X as <- <- <-. eexists _, _, _. cbn [In]. do 5 right. left. reflexivity.
  - right. exists [kk "j"]. split; [reflexivity|]. intros id u a k2 [X|[X|[X|[X|[X|[X|[X|[X|[]]]]]]]]] E Ne; try discriminate X.
    + injection X as <- <- <-. injection E as <-. now left.
    + injection X as <- <- <-. injection E as <-. now contradiction Ne.
  - vm_compute. reflexivity.
Qed.
Example C51_ex_sane : forall e, In e [at_ 1 (sg "k" 1700000060000 1 "a"); EvDone 0 minute] -> small_ev e /\ stamp_small e.
Proof.
  intros e [<-|[<-|[]]]; (split; [repeat split; vm_compute; discriminate|]); [|exact I].
  intros n (v & F & Nn). apply custom_some in F as (b & G & <-). vm_compute in G. injection G as <-. destruct Nn as [_ ->]. exists 1700000060000000000. split; [apply ms_time_iff; vm_compute; reflexivity|split; vm_compute; discriminate].
Qed.

(* ---- what does not hold ---- *)
(* Validations that overlap: an Interest is accepted twice with all checks enabled, since its values are recorded only when its validation has succeeded
   (and after the application's success callback has run). *)
Theorem C51_overlap_refuted : exists l s v u, sgn_run opts3 l = Ok (s, [ObPass 0 now0 u (Some v); ObPass 1 now0 u (Some v); ObDone 0 u (Some v); ObDone 1 u (Some v)]).
Proof. exists [at_ 0 (sg "k" 1700000000000 1 "a"); at_ 0 (sg "k" 1700000000000 1 "a"); EvDone 0 0; EvDone 1 0]. eexists _, _, 0. vm_compute. reflexivity. Qed.
Print Assumptions C51_overlap_refuted.
(* A v0.2 signed Interest (a command in the old format) is not checked at all: it is accepted again and again. *)
Theorem C51_old_format_refuted : exists i s u, sgn_run opts3 [EvCheck now0 u i; EvDone 0 u; EvCheck now0 u i; EvDone 1 u] =
  Ok (s, [ObPass 0 now0 u None; ObDone 0 u None; ObPass 1 now0 u None; ObDone 1 u None]) /\ is_command i (kk "k") 1000000.
Proof. exists (old "k" 1). eexists _, 0. split; [vm_compute; reflexivity|]. apply parseCommand_iff. vm_compute. reflexivity. Qed.
Print Assumptions C51_old_format_refuted.
(* Why the acceptance must be later than those before it: if several keys are refreshed at the same clock reading, the record of one just refreshed may be
   the next to go.  With room for two keys, k's Interest is accepted again after one Interest of a third key. *)
Theorem C51_tie_refuted : exists l s t1 t2 u v id' sys st, sgn_run opts3 l = Ok (s, t1 ++ ObDone 2 u (Some v) :: t2 ++ [ObPass id' sys st (Some v)]) /\
  in_order (t1 ++ ObDone 2 u (Some v) :: t2 ++ [ObPass id' sys st (Some v)]) /\ one_by_one skey (sv_key v) t2 /\ few_others skey (sv_key v) (so_max opts3) t2.
Proof.
  exists [at_ 0 (sg "k" 1700000000000 1 "a"); EvDone 0 0; at_ 0 (sg "j" 1700000000000 1 "a"); EvDone 1 0; at_ 0 (sg "k" 1700000000001 2 "b"); EvDone 2 0;
          at_ 0 (sg "i" 1700000000000 1 "a"); EvDone 3 0; at_ 0 (sg "k" 1700000000001 2 "b")].
  eexists _, [_; _; _; _; _], [_; _], 0, _, _, _, _. split; [vm_compute; reflexivity|]. splits.
  - apply order_check. cbn [app]. repeat (constructor; [|repeat constructor; cbn [ob_steady]; intros a b [= <-] [= <-]; vm_compute; discriminate]). constructor.
  - intros id u a [X|[X|[]]] E; [discriminate|]. injection X as <- <- <-. vm_compute in E. discriminate.
  - right. exists [kk "i"]. split; [reflexivity|]. intros id u a k2 [X|[X|[]]] E Ne; [discriminate|]. injection X as <- <- <-. vm_compute in E. injection E as <-. now left.
Qed.
Print Assumptions C51_tie_refuted.
(* A SignatureSeqNum (or SignatureTime) that is not a number, in a SignatureInfo that decodes, makes an exception leave Validator::validate; it does so even
   if the check of that field is not enabled. *)
Theorem C51_malformed_refuted : exists s b si, si_decode SiInterest b = (si, None) /\
  sgn_run (mkSO false 0 false false 2 2) [EvCheck now0 0 (V03 si)] = Ok (s, [ObThrow now0 0 ETlv]).
Proof.
  eexists _, (mkBlock 44 (tlv_nni 27 1 ++ tlv_enc 28 (tlv_enc 7 (tlv_enc 8 (str "k"))) ++ tlv_enc 42 (str "abc"))), _. split; [vm_compute; reflexivity|]. vm_compute. reflexivity.
Qed.
Print Assumptions C51_malformed_refuted.
(* A timestamp beyond the year 2262 overflows when it is converted to the clock's nanoseconds. *)
Theorem C51_overflow_refuted : exists b si, si_decode SiInterest b = (si, None) /\ sgn_run opts3 [EvCheck now0 0 (V03 si)] = Err EUb.
Proof.
  eexists (mkBlock 44 (tlv_nni 27 1 ++ tlv_enc 28 (tlv_enc 7 (tlv_enc 8 (str "k"))) ++ tlv_nni 40 10000000000000)), _.
  split; [vm_compute; reflexivity|]. vm_compute. reflexivity.
Qed.
Print Assumptions C51_overflow_refuted.
