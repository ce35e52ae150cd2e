(* Lemmas about the RTT estimator that do not depend on floating point. *)
From Coq Require Import ZArith Lia ZifyBool.
From Verif Require Import Base BaseLemmas M_Rtt S_Rtt.
Open Scope Z_scope.

Lemma chk_ok : forall z y, chk z = Ok y -> y = z /\ I64MIN <= z <= I64MAX.
Proof. intros z y H. unfold chk in H. destruct ((I64MIN <=? z) && (z <=? I64MAX)) eqn:E; [|discriminate]. injection H as <-. split; auto. lia. Qed.
Lemma chk_in : forall z, I64MIN <= z <= I64MAX -> chk z = Ok z.
Proof. intros z H. unfold chk. replace ((I64MIN <=? z) && (z <=? I64MAX)) with true; auto. lia. Qed.
Lemma clamp_in : forall v lo hi, lo <= hi -> lo <= clamp v lo hi <= hi.
Proof. intros. unfold clamp. destruct (v <? lo) eqn:A; [lia|]. destruct (hi <? v) eqn:B; lia. Qed.

(* what the statistics say of the samples so far, xs *)
Definition stats (xs : list Z) (r : rtt) : Prop :=
  r_n r = Z.of_nat (length xs) /\ Forall (fun x => 0 <= x) xs /\
  match xs with
  | [] => r_smin r = I64MAX /\ r_smax r = I64MIN /\ r_avg r = 0
  | _ => In (r_smin r) xs /\ In (r_smax r) xs /\ Forall (fun x => r_smin r <= x <= r_smax r) xs /\
         r_smin r <= r_avg r <= r_smax r /\
         0 <= 2 * (zsum xs - r_n r * r_avg r) <= r_n r * (r_n r - 1)
  end.
Lemma zsum_app : forall a b, zsum (a ++ b) = zsum a + zsum b.
Proof. induction a as [|x a IH]; intro b; cbn; auto. unfold zsum in *. rewrite IH. lia. Qed.
Lemma base_keeps : forall o x n r r', rtt_base o x n r = Ok r' -> 0 <= x /\ r_smin r' = r_smin r /\ r_smax r' = r_smax r /\ r_avg r' = r_avg r /\ r_n r' = r_n r /\
  exists t, r_rto r' = clamp t (o_min o) (o_max o).
Proof.
  intros o x n r r' H. unfold rtt_base in H. destruct (negb ((0 <=? x) && (0 <? n)%N)) eqn:E; [discriminate|].
  destruct (if r_srtt r =? -1 then _ else _) as [p|]; cbn [bind] in H; [|discriminate].
  destruct (chk (o_k o * snd p)) as [kv|]; cbn [bind] in H; [|discriminate].
  destruct (chk (fst p + kv)) as [t|]; cbn [bind] in H; [|discriminate].
  injection H as <-. cbn. splits; auto; [lia|eauto].
Qed.
Lemma add_stats : forall o x n r r' xs, rtt_add o x n r = Ok r' -> x <= I64MAX -> stats xs r -> stats (xs ++ [x]) r'.
Proof.
  intros o x n r r' xs H Hx (Sn & Sp & Sx). unfold rtt_add in H.
  destruct (rtt_base o x n r) as [r1|] eqn:B; cbn [bind] in H; [|discriminate].
  apply base_keeps in B as (Px & B1 & B2 & B3 & B4 & _). rewrite B1, B2, B3, B4 in H.
  destruct (chk (r_n r * r_avg r)) as [a|] eqn:Ea; cbn [bind] in H; [|discriminate].
  destruct (chk (a + x)) as [b|] eqn:Eb; cbn [bind] in H; [|discriminate].
  destruct (chk (r_n r + 1)) as [c|] eqn:Ec; cbn [bind] in H; [|discriminate].
  apply chk_ok in Ea as [-> _], Eb as [-> _], Ec as [-> _]. injection H as <-. unfold stats. cbn [r_n r_smin r_smax r_avg].
  split. { rewrite app_length, Sn. cbn. lia. }
  split. { apply Forall_app. auto. }
  assert (Hn : 0 <= r_n r) by lia.
  destruct xs as [|y ys].
  - cbn in Sn. destruct Sx as (Sa & Sb & Sc). cbn [app]. rewrite Sa, Sb, Sc, Sn.
    assert (Q : (0 * 0 + x) ÷ (0 + 1) = x) by (rewrite Z.quot_1_r; lia). rewrite Q.
    unfold I64MAX, I64MIN in *. replace (Z.min x 9223372036854775807) with x by lia. replace (Z.max x (-9223372036854775808)) with x by lia.
    replace (zsum [x]) with x by (cbn; lia). splits; try (now left); try lia. constructor; [lia|constructor].
  - cbn [app]. destruct Sx as (Sa & Sb & Sc & Sd & Se).
    set (l := y :: ys) in *. change (y :: ys ++ [x]) with (l ++ [x]).
    assert (Ha : 0 <= r_smin r). { rewrite Forall_forall in Sp. auto. }
    rewrite Z.quot_div_nonneg by nia.
    pose proof (Z.div_mod (r_n r * r_avg r + x) (r_n r + 1) ltac:(lia)) as D.
    pose proof (Z.mod_pos_bound (r_n r * r_avg r + x) (r_n r + 1) ltac:(lia)) as R.
    set (q := (r_n r * r_avg r + x) / (r_n r + 1)) in *. set (m := (r_n r * r_avg r + x) mod (r_n r + 1)) in *.
    splits.
    + apply in_app_iff. destruct (Z.min_spec x (r_smin r)) as [[_ ->]|[_ ->]]; auto. right. now left.
    + apply in_app_iff. destruct (Z.max_spec x (r_smax r)) as [[_ ->]|[_ ->]]; auto. right. now left.
    + apply Forall_app. split; [|constructor; auto; lia]. eapply Forall_impl; [|exact Sc]. cbn. lia.
    + assert (r_n r * Z.min x (r_smin r) <= r_n r * r_avg r) by (apply Z.mul_le_mono_nonneg_l; lia). unfold q. apply Z.div_le_lower_bound; lia.
    + assert (r_n r * r_avg r <= r_n r * Z.max x (r_smax r)) by (apply Z.mul_le_mono_nonneg_l; lia). unfold q. apply Z.lt_succ_r. apply Z.div_lt_upper_bound; lia.
    + rewrite zsum_app. replace (zsum [x]) with x by (cbn; lia). clearbody q m. clear - Se D R Hn. nia.
    + rewrite zsum_app. replace (zsum [x]) with x by (cbn; lia). clearbody q m. clear - Se D R Hn. nia.
Qed.
Lemma backoff_stats : forall o r r' xs, rtt_backoff o r = Ok r' -> stats xs r -> stats xs r'.
Proof.
  intros o r r' xs H S. unfold rtt_backoff in H. destruct (chk _); cbn [bind] in H; [|discriminate]. injection H as <-. exact S.
Qed.
Lemma run_stats : forall o l r r' xs, Forall (rop_ok I64MAX) l -> rtt_run o l r = Ok r' -> stats xs r -> stats (xs ++ samples l) r'.
Proof.
  intros o. induction l as [|a l IH]; intros r r' xs F H Hs; cbn [rtt_run] in H.
  - injection H as <-. cbn. now rewrite app_nil_r.
  - inversion F as [|? ? Fa Fl]; subst. destruct (rtt_step o a r) as [r1|] eqn:E; cbn [bind] in H; [|discriminate].
    destruct a as [x n|]; cbn [samples rtt_step] in *.
    + replace (xs ++ x :: samples l) with ((xs ++ [x]) ++ samples l) by (now rewrite <- app_assoc).
      eapply IH; eauto. eapply add_stats; eauto. cbn in Fa. lia.
    + eapply IH; eauto. eapply backoff_stats; eauto.
Qed.
Lemma step_rto : forall o a r r', o_min o <= o_max o -> rtt_step o a r = Ok r' -> o_min o <= r_rto r' <= o_max o.
Proof.
  intros o [x n|] r r' M H; cbn [rtt_step] in H.
  - unfold rtt_add in H. destruct (rtt_base o x n r) as [r1|] eqn:B; cbn [bind] in H; [|discriminate].
    apply base_keeps in B as (_ & _ & _ & _ & _ & t & Ht).
    destruct (chk (r_n r1 * _)); cbn [bind] in H; [|discriminate]. destruct (chk (_ + x)); cbn [bind] in H; [|discriminate].
    destruct (chk (r_n r1 + 1)); cbn [bind] in H; [|discriminate]. injection H as <-. cbn. rewrite Ht. now apply clamp_in.
  - unfold rtt_backoff in H. destruct (chk _); cbn [bind] in H; [|discriminate]. injection H as <-. cbn. now apply clamp_in.
Qed.
Lemma run_app : forall o a b r, rtt_run o (a ++ b) r = (let! r1 := rtt_run o a r in rtt_run o b r1).
Proof. intros o. induction a as [|x a IH]; intros b r; cbn; auto. destruct (rtt_step o x r); cbn; auto. Qed.
Lemma new_ok : forall o r, rtt_new o = Ok r -> ropts_ok o = true /\ r = mkRtt (-1) (-1) (o_init o) I64MAX I64MIN 0 0.
Proof. intros o r H. unfold rtt_new in H. destruct (ropts_ok o); [|discriminate]. now injection H as <-. Qed.
Lemma opts_facts : forall o, ropts_ok o = true -> 0 <= o_init o /\ 0 <= o_min o /\ o_min o <= o_max o /\ 0 <= o_k o /\ 1 <= o_mult o.
Proof. intros o H. unfold ropts_ok in H. lia. Qed.
