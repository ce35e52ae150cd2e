(* C48: the RTT estimator. *)
From Coq Require Import ZArith Lia SpecFloat Reals.
From Flocq Require Import Core BinarySingleNaN.
From Verif Require Import Base BaseLemmas M_Rtt S_Rtt S_RttF P_Rtt P_RttF.
Open Scope Z_scope.

(* rtt-estimator.hpp: the default options.  0.125 = 1 * 2^-3, 0.25 = 1 * 2^-2 as doubles *)
Definition default_opts : ropts :=
  mkRopts (S754_finite false 4503599627370496 (-55)) (S754_finite false 4503599627370496 (-54)) 1000000000 200000000 60000000000 4 2.

(* Before any call the RTO is the configured initial one.  After any history that ends with a measurement or a back-off it is
   between the configured minimum and maximum, and a back-off never makes it smaller once it is there. *)
Theorem C48_rto_in_bounds : forall o l r, rtt_hist o l = Ok r ->
  (l = [] -> r_rto r = o_init o) /\ (l <> [] -> o_min o <= r_rto r <= o_max o) /\
  (forall r', rtt_step o RBackoff r = Ok r' -> o_min o <= r_rto r' <= o_max o /\ Z.min (r_rto r) (o_max o) <= r_rto r').
Proof.
  intros o l r H. unfold rtt_hist in H. destruct (rtt_new o) as [r0|] eqn:N; cbn [bind] in H; [|discriminate].
  apply new_ok in N as [O ->]. assert (F := opts_facts o O).
  assert (L : l <> [] -> o_min o <= r_rto r <= o_max o).
  { intro E. destruct (exists_last E) as (l' & a & ->). rewrite run_app in H. destruct (rtt_run o l' _) as [r1|]; cbn [bind rtt_run] in H; [|discriminate].
    destruct (rtt_step o a r1) eqn:S; cbn [bind] in H; [|discriminate]. injection H as <-. eapply step_rto; eauto. lia. }
  split; [intros ->; cbn in H; injection H as <-; reflexivity|]. split; auto.
  intros r' S. split; [eapply step_rto; eauto; lia|].
  assert (P : 0 <= r_rto r). { destruct l as [|a l]; [cbn in H; injection H as <-; cbn; lia|]. assert (a :: l <> []) by discriminate. apply L in H0. lia. }
  cbn in S. unfold rtt_backoff in S. destruct (chk (r_rto r * o_mult o)) as [t|] eqn:C; cbn [bind] in S; [|discriminate]. injection S as <-.
  apply chk_ok in C as [-> _]. cbn [r_rto]. unfold clamp. assert (r_rto r <= r_rto r * o_mult o) by nia.
  destruct (r_rto r * o_mult o <? o_min o) eqn:X; [lia|]. destruct (o_max o <? r_rto r * o_mult o) eqn:Y; lia.
Qed.
Print Assumptions C48_rto_in_bounds.

(* The statistics of every history with at least one sample: the minimum and maximum are the least and the greatest sample; the
   average lies between them and understates the mean of the n samples by at most (n-1)/2 nanoseconds. *)
Theorem C48_statistics : forall o l r, Forall (rop_ok (2 ^ 63 - 1)) l -> rtt_hist o l = Ok r -> samples l <> [] ->
  In (r_smin r) (samples l) /\ In (r_smax r) (samples l) /\ Forall (fun x => r_smin r <= x <= r_smax r) (samples l) /\
  r_smin r <= r_avg r <= r_smax r /\
  let n := Z.of_nat (length (samples l)) in 0 <= 2 * (zsum (samples l) - n * r_avg r) <= n * (n - 1).
Proof.
  intros o l r F H N. unfold rtt_hist in H. destruct (rtt_new o) as [r0|] eqn:E; cbn [bind] in H; [|discriminate].
  apply new_ok in E as [O ->].
  assert (S := run_stats o l _ r [] F H). cbn [app] in S. destruct S as (S1 & S2 & S3).
  { unfold stats. cbn. auto. }
  destruct (samples l); [congruence|]. rewrite S1 in S3. exact S3.
Qed.
Print Assumptions C48_statistics.

(* No call overflows, asserts or converts a double out of range, and the smoothed RTT and RTT variation stay within the bound on
   the samples: for samples of at most M <= 2^50 ns (13 days), options that satisfy the constructor, and products that fit 63 bits. *)
Theorem C48_defined : forall o l M, ropts_typed o -> ropts_ok o = true -> 0 <= M <= 2 ^ 50 -> Forall (rop_ok M) l ->
  (o_k o + 1) * M < 2 ^ 63 -> o_mult o * Z.max (o_init o) (o_max o) < 2 ^ 63 -> (Z.of_nat (length (samples l)) + 1) * (M + 1) < 2 ^ 63 ->
  exists r, rtt_hist o l = Ok r /\ (samples l <> [] -> 0 <= r_srtt r <= M /\ 0 <= r_var r <= M).
Proof.
  intros o l M T O HM F HK HR HN. unfold rtt_hist, rtt_new. rewrite O. cbn [bind]. assert (G := opts_facts o O).
  assert (St : stats [] (mkRtt (-1) (-1) (o_init o) I64MAX I64MIN 0 0)) by (unfold stats; cbn; auto).
  assert (Sa : sane o M (mkRtt (-1) (-1) (o_init o) I64MAX I64MIN 0 0)) by (unfold sane; cbn; split; [lia|auto]).
  destruct (run_sane o M l _ [] T O HM HK HR F Sa St) as (r & E & S); auto.
  exists r. split; auto. intro N.
  assert (Fm : Forall (rop_ok I64MAX) l). { eapply Forall_impl; [|exact F]. intros [x n|]; cbn; auto. unfold I64MAX. lia. }
  destruct (run_stats o l _ r [] Fm E St) as (S1 & _). cbn [app] in S1. destruct (samples l); [congruence|]. cbn [length] in S1.
  destruct S as [_ [[_ S]|[A [B _]]]]; [lia|auto].
Qed.
Print Assumptions C48_defined.

(* What the last call of a history does.  A measurement x among n expected ones sets the smoothed RTT to x and the variation to half
   of it if it is the first, and otherwise moves them towards x and |SRTT - x| by alpha/n and beta/n, up to rounding; the new RTO is
   SRTT + k * RTTVAR limited to the configured range.  A back-off multiplies the RTO, limited to the range, and keeps the rest. *)
Theorem C48_follows : forall o l M r a r', ropts_typed o -> ropts_ok o = true -> 0 <= M <= 2 ^ 50 -> Forall (rop_ok M) l ->
  (o_k o + 1) * M < 2 ^ 63 -> o_mult o * Z.max (o_init o) (o_max o) < 2 ^ 63 -> (Z.of_nat (length (samples l)) + 1) * (M + 1) < 2 ^ 63 ->
  rtt_hist o l = Ok r -> rtt_step o a r = Ok r' ->
  match a with
  | RAdd x n => 0 <= x <= M -> (0 < n < 2 ^ 52)%N ->
      r_rto r' = limited (r_srtt r' + o_k o * r_var r') (o_min o) (o_max o) /\
      (samples l = [] -> r_srtt r' = x /\ r_var r' = x / 2) /\
      (samples l <> [] -> near (r_srtt r') (wmean (o_alpha o) n (IZR (r_srtt r)) (IZR x)) /\
                          near (r_var r') (wmean (o_beta o) n (IZR (r_var r)) (IZR (Z.abs (r_srtt r - x)))))
  | RBackoff => r_rto r' = limited (r_rto r * o_mult o) (o_min o) (o_max o) /\ r_srtt r' = r_srtt r /\ r_var r' = r_var r
  end.
Proof.
  intros o l M r a r' T O HM F HK HR HN H S. unfold rtt_hist, rtt_new in H. rewrite O in H. cbn [bind] in H. assert (G := opts_facts o O).
  assert (St : stats [] (mkRtt (-1) (-1) (o_init o) I64MAX I64MIN 0 0)) by (unfold stats; cbn; auto).
  assert (Sa : sane o M (mkRtt (-1) (-1) (o_init o) I64MAX I64MIN 0 0)) by (unfold sane; cbn; split; [lia|auto]).
  destruct (run_sane o M l _ [] T O HM HK HR F Sa St) as (r0 & E & S0); auto. rewrite H in E. injection E as <-.
  assert (Fm : Forall (rop_ok I64MAX) l). { eapply Forall_impl; [|exact F]. intros [x n|]; cbn; auto. unfold I64MAX. lia. }
  destruct (run_stats o l _ r [] Fm H St) as (S1 & _). cbn [app] in S1.
  destruct a as [x n|]; cbn in S.
  - intros Hx Hn. unfold rtt_add in S. destruct (rtt_base o x n r) as [r1|] eqn:B; cbn [bind] in S; [|discriminate].
    destruct (chk (r_n r1 * r_avg r1)) as [b|]; cbn [bind] in S; [|discriminate].
    destruct (chk (b + x)) as [c|]; cbn [bind] in S; [|discriminate].
    destruct (chk (r_n r1 + 1)) as [d|]; cbn [bind] in S; [|discriminate]. injection S as <-. cbn [r_rto r_srtt r_var].
    destruct (base_follows o x n r r1 M) as (Q1 & Q2 & Q3); auto. split; auto. split.
    + intro L. rewrite L in S1. apply Q2. exact S1.
    + intro L. apply Q3. destruct (samples l); [congruence|]. cbn [length] in S1. lia.
  - unfold rtt_backoff in S. destruct (chk (r_rto r * o_mult o)) as [t|] eqn:C; cbn [bind] in S; [|discriminate].
    apply chk_ok in C as [-> _]. injection S as <-. cbn [r_rto r_srtt r_var]. split; auto. apply clamp_limited. lia.
Qed.
Print Assumptions C48_follows.
Example C48_follows_ex : exists r r', rtt_hist default_opts [RAdd 100000000 1; RBackoff; RAdd 300000000 2] = Ok r /\
  rtt_step default_opts (RAdd 40000001 1) r = Ok r' /\ r_srtt r = 112500000 /\ r_srtt r' = 103437500 /\
  8 * 103437500 = 7 * 112500000 + 40000001 - 1.
Proof. eexists _, _. split; [vm_compute; reflexivity|]. split; [vm_compute; reflexivity|]. vm_compute. auto. Qed.
(* missing: the bound on the samples.  With the default options a first sample of 2^62 ns overflows. *)
Theorem C48_defined_refuted : exists x, 0 <= x < 2 ^ 63 /\ rtt_hist default_opts [RAdd x 1] = Err EUb.
Proof. exists (2 ^ 62). split; [lia|]. vm_compute. reflexivity. Qed.
Print Assumptions C48_defined_refuted.

Definition ex_rops : list rop := [RAdd 100000000 1; RBackoff; RAdd 300000000 2; RAdd 40000001 1; RBackoff].
Example C48_ex : ropts_typed default_opts /\ ropts_ok default_opts = true /\ Forall (rop_ok (2 ^ 40)) ex_rops /\
  exists r, rtt_hist default_opts ex_rops = Ok r /\ r_srtt r = 103437500 /\ r_var r = 69687499 /\ r_rto r = 764374992 /\
    r_smin r = 40000001 /\ r_smax r = 300000000 /\ r_avg r = 146666667.
Proof.
  split. { unfold ropts_typed. cbn. splits; try reflexivity; lia. }
  split; [reflexivity|]. split. { repeat constructor; cbn; lia. }
  eexists. split; [vm_compute; reflexivity|]. vm_compute. auto 10.
Qed.
