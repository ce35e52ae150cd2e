(* C56: hexadecimal transforms. *)
From Coq Require Import Lia ZifyBool ZifyNat ZifyN.
From Verif Require Import Base BaseLemmas M_Transform S_Transform P_Transform.
Open Scope N_scope.

(* C56.  bufferSource(bufs) >> any chain of hexEncode, hexDecode and stripSpace >> a sink that takes everything (streamSink): however the
   input is cut into buffers, the sink receives the result of the chain on the whole input and is ended; if there is none, because a
   hexDecode gets an odd number of digits or something else than digits, Error is thrown. *)
Theorem C56_pump : forall ks bufs c r, bs_pump (length ks) (ch_new ks []) bufs = (c, r) ->
  match r with
  | None => chain_means ks (concat bufs) (k_got (ch_sink _ c)) /\ k_end (ch_sink _ c) = true
  | Some e => e = ERuntime /\ ~ exists z, chain_means ks (concat bufs) z
  end.
Proof.
  intros ks bufs c r H. destruct (new_ok ks []) as (A & L & F & SC & K). pose proof (pump_ok _ _ _ _ _ _ A L (or_introl (conj F SC)) H) as R. rewrite K, SC in R. cbn [app] in R. destruct r as [e|].
  - destruct R as [-> [[]|R]]. split; auto. intros [z Z]. apply cfinal_means in Z. congruence.
  - rewrite <- cfinal_means. exact R.
Qed.
Print Assumptions C56_pump.
(* the result is unique *)
Theorem C56_functional : forall ks x z z', chain_means ks x z -> chain_means ks x z' -> z = z'.
Proof. intros ks x z z' A B. apply cfinal_means in A, B. congruence. Qed.
Print Assumptions C56_functional.
(* C56.  Encoding and decoding gives back the input *)
Theorem C56_round_trip : forall u bufs, exists c, bs_pump 2 (ch_new [HexEncode u; HexDecode] []) bufs = (c, None) /\ k_got (ch_sink 2 c) = concat bufs.
Proof.
  intros u bufs. destruct (bs_pump 2 (ch_new [HexEncode u; HexDecode] []) bufs) as [c r] eqn:H. pose proof (C56_pump [HexEncode u; HexDecode] bufs c r H) as R.
  assert (M : chain_means [HexEncode u; HexDecode] (concat bufs) (concat bufs)).
  { exists (toHex u (concat bufs)). split; [now apply toHex_means|]. exists (concat bufs). split; [|reflexivity]. now apply (toHex_means u (concat bufs)). }
  destruct r as [e|]; [destruct R as [_ R]; exfalso; eauto|]. exists c. split; auto. destruct R as [R _]. eapply C56_functional; eauto.
Qed.
Print Assumptions C56_round_trip.
(* C56.  The same with stepSource: the application writes the pieces and calls end.  Every write takes its whole argument. *)
Theorem C56_step : forall ks bufs c rs, ss_run (length ks) (map SWrite bufs ++ [SEnd]) (ch_new ks []) = (c, rs) ->
  (rs = map (fun b => Ok (nlen b)) bufs ++ [Ok 0] /\ chain_means ks (concat bufs) (k_got (ch_sink _ c)) /\ k_end (ch_sink _ c) = true) \/
  (In (Err ERuntime) rs /\ ~ exists z, chain_means ks (concat bufs) z).
Proof.
  intros ks bufs c rs H. destruct (new_ok ks []) as (A & L & F & SC & K). destruct (step_run _ _ _ _ _ _ A L F SC H) as [(R1 & R2 & R3)|[R1 R2]]; rewrite K in R2; cbn [app] in R2; [left|right].
  - splits; auto. now apply cfinal_means.
  - split; auto. intros [z Z]. apply cfinal_means in Z. congruence.
Qed.
Print Assumptions C56_step.
(* once ended, a chain takes no more input *)
Theorem C56_after_end : forall n c c' r b, ch_end n c = (c', r) -> ch_write n c' b = (c', Err ERuntime) /\ ch_end n c' = (c', None).
Proof. exact after_end. Qed.
Print Assumptions C56_after_end.

(* C56, sinks that take only part of what they are offered, or throw: chains without hexDecode lose nothing; an error can only come from
   the sink *)
Theorem C56_partial_sinks : forall ks sched bufs c r, ~ In HexDecode ks -> bs_pump (length ks) (ch_new ks sched) bufs = (c, r) ->
  match r with
  | None => chain_means ks (concat bufs) (k_got (ch_sink _ c)) /\ k_end (ch_sink _ c) = true
  | Some e => e = ERuntime /\ In None sched
  end.
Proof.
  intros ks sched bufs c r NO H. destruct (new_ok ks sched) as (A & L & F & SC & K). assert (SE : settled _ (ch_new ks sched)) by (right; now rewrite K).
  pose proof (pump_ok _ _ _ _ _ _ A L SE H) as R. rewrite K, SC in R. cbn [app] in R. destruct r as [e|].
  - destruct R as [-> [R|R]]; [auto|]. exfalso. clear - NO R. revert NO R. generalize (concat bufs). induction ks as [|k ks IH]; intros x NO R; [discriminate|]. cbn [cfinal] in R. cbn in NO.
    destruct (tfinal k x) eqn:E; [eapply IH; [|exact R]; intro; apply NO; auto|]. destruct k; try discriminate. apply NO. now left.
  - rewrite <- cfinal_means. exact R.
Qed.
Print Assumptions C56_partial_sinks.
(* A chain that ends with hexDecode loses octets when the sink does not take all of them at once: HexDecode::finalize does not flush the
   output buffer.  No error is reported. *)
Theorem C56_partial_sinks_refuted : exists c, bs_pump 1 (ch_new [HexDecode] [Some 1]) [str "414243"] = (c, None) /\ k_got (ch_sink 1 c) = str "A" /\
  chain_means [HexDecode] (str "414243") (str "ABC").
Proof. eexists. split; [vm_compute; reflexivity|]. split; [reflexivity|]. apply cfinal_means. reflexivity. Qed.
Print Assumptions C56_partial_sinks_refuted.

Example C56_ex : exists c1 c2 c3,
  bs_pump 2 (ch_new [StripSpace (fun b => beqb b " "); HexDecode] []) [str "4"; str "1 4"; str "2"] = (c1, None) /\ k_got (ch_sink 2 c1) = str "AB" /\
  bs_pump 1 (ch_new [HexDecode] []) [str "4"; str "14"] = (c2, Some ERuntime) /\
  bs_pump 2 (ch_new [HexEncode true; StripSpace (fun b => beqb b "0")] [Some 1; Some 0; Some 2]) [[x0a]; str "AB"] = (c3, None) /\ k_got (ch_sink 2 c3) = str "A4142".
Proof. do 3 eexists. split; [vm_compute; reflexivity|]. split; [reflexivity|]. split; [vm_compute; reflexivity|]. split; [vm_compute; reflexivity|reflexivity]. Qed.
