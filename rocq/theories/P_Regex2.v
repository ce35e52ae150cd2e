(* Back references: numbering and what they capture *)
From Coq Require Import List Lia ZifyBool ZifyNat ZifyN Arith.
From Verif Require Import Base BaseLemmas M_Str M_Name M_Regex S_Regex P_Regex.
Import ListNotations.
Open Scope N_scope.

Section C.
Variable re_match : bytes -> bytes -> option (list bytes).
Variable uf : uri_format.
Variable stack : nat.
Variable marks : bytes -> N.
Notation match_rx := (match_rx re_match uf stack).
Notation acc := (acc re_match).
Notation lang := (lang acc uf).
Notation captured := (captured acc uf marks).
Notation captured_all := (captured_all acc uf marks).
Notation width := (width marks).
Definition widths (l : list pat) : N := sum (map width l).

Fixpoint numbc (l : list rcomp) (n : N) : Prop :=
  match l with [] => True | x :: l' => rc_base x = n /\ rc_marks x = marks (rc_expr x) /\ numbc l' (n + rc_marks x) end.
Fixpoint numb (r : rx) (n : N) : Prop :=
  match r with
  | RSet _ l => numbc l n
  | RGrp i l => i = n /\ (fix each (l : list rx) (n : N) : Prop := match l with [] => True | q :: l' => numb q n /\ each l' (n + width (erase q)) end) l (n + 1)
  | RRep r' _ _ => numb r' n
  end.
Fixpoint numbl (l : list rx) (n : N) : Prop := match l with [] => True | q :: l' => numb q n /\ numbl l' (n + width (erase q)) end.
Lemma numb_grp : forall i l n, numb (RGrp i l) n <-> i = n /\ numbl l (n + 1).
Proof. intros. cbn [numb]. split; intros [A B]; (split; [exact A|]); clear A; revert B; generalize (n + 1); induction l as [|q l IH]; intros m B; cbn [numbl] in *; intuition. Qed.
Lemma captured_grp : forall l i w c, captured (PGrp l) i w c <-> c i = w /\ captured_all l (i + 1) w c.
Proof.
  intros. cbn [S_Regex.captured]. split; intros [A B]; (split; [exact A|]); clear A; revert w B; generalize (i + 1); induction l as [|q l IH]; intros m w B; cbn [S_Regex.captured_all] in *; auto; destruct B as (u & v & E & X & Y); exists u, v; (splits; [exact E|exact X|apply IH; exact Y]).
Qed.
Lemma width_grp : forall l, width (PGrp l) = 1 + widths l.
Proof. reflexivity. Qed.
(* ---- what a matcher changes ---- *)
Definition out (n k : N) (c c' : caps) : Prop := forall j, j < n \/ n + k <= j -> c' j = c j.
Definition frames (n k : N) (m : matcher) : Prop := forall w c b c', m w c = Ok (b, c') -> out n k c c'.
Lemma out_refl : forall n k c, out n k c c.
Proof. intros n k c j _. reflexivity. Qed.
Lemma out_trans : forall n k a b c, out n k a b -> out n k b c -> out n k a c.
Proof. intros n k a b c H1 H2 j J. rewrite H2, H1; auto. Qed.
Lemma out_wide : forall n k n' k' a b, out n k a b -> n' <= n -> n + k <= n' + k' -> out n' k' a b.
Proof. intros n k n' k' a b H L1 L2 j J. apply H. lia. Qed.
Lemma set_marks_out : forall k i subs c, out i (N.of_nat k) c (set_marks k i subs c).
Proof.
  induction k as [|k IH]; intros i subs c; cbn [set_marks]; [apply out_refl|]. eapply out_trans; [|eapply out_wide; [apply IH|lia|lia]]. intros j J. unfold cap_set. destruct (N.eqb_spec j i); [lia|reflexivity].
Qed.
Lemma match_comps_out : forall l n w c, numbc l n -> out n (sum (map marks (map rc_expr l))) c (snd (match_comps re_match uf l w c)).
Proof.
  induction l as [|x l IH]; intros n w c H; cbn [match_comps map sum fold_right]; [apply out_refl|]. destruct H as (B & M & H). fold (sum (map marks (map rc_expr l))).
  assert (A : out n (marks (rc_expr x)) c (snd (match_comp re_match uf x w c))).
  { unfold match_comp. destruct (rc_expr x) as [|e0 e] eqn:E; [apply out_refl|]. destruct (re_match (e0 :: e) (comp_toUri uf w)) as [subs|]; [|apply out_refl]. cbn [snd]. rewrite B, M. pose proof (set_marks_out (N.to_nat (marks (e0 :: e))) n subs c) as Q. now rewrite N2Nat.id in Q. }
  destruct (fst _); [eapply out_wide; [exact A|lia|lia]|]. eapply out_trans; [eapply out_wide; [exact A|lia|lia]|]. eapply out_wide; [apply IH, H|lia|]. rewrite M. lia.
Qed.
Lemma brec_frames : forall n k ms, Forall (frames n k) ms -> frames n k (brec ms).
Proof.
  intros n k. induction 1 as [|m ms Hm _ IH]; intros w c b c' H; cbn [brec] in H; [injection H as _ <-; apply out_refl|].
  eapply (tries_inv (fun c' => out n k c c')); [|apply out_refl|exact H]. intros j c0 b0 c1 _ O F. cbn beta in F. destruct (m (firstn j w) c0) as [[b1 c2]|] eqn:M; cbn [bind fst snd] in F; [|discriminate]. pose proof (Hm _ _ _ _ M) as O1. destruct b1; [apply IH in F; eapply out_trans; [exact O|eapply out_trans; eauto]|]. injection F as _ <-. eapply out_trans; eauto.
Qed.
Lemma rrec_frames : forall n k m mn mx, frames n k m -> forall st i, frames n k (rrec st m mn mx i).
Proof.
  intros n k m mn mx Hm. induction st as [|st IH]; intros i w c b c' H; cbn [rrec] in H; [discriminate|]. destruct w as [|x w]; [injection H as _ <-; apply out_refl|]. destruct (mx <=? i); [injection H as _ <-; apply out_refl|].
  eapply (tries_inv (fun c' => out n k c c')); [|apply out_refl|exact H]. intros j c0 b0 c1 _ O F. cbn beta in F. destruct (m (firstn j (x :: w)) c0) as [[b1 c2]|] eqn:M; cbn [bind fst snd] in F; [|discriminate]. pose proof (Hm _ _ _ _ M) as O1. destruct b1; [apply IH in F; eapply out_trans; [exact O|eapply out_trans; eauto]|]. injection F as _ <-. eapply out_trans; eauto.
Qed.
Lemma frames_wide : forall n k n' k' m, frames n k m -> n' <= n -> n + k <= n' + k' -> frames n' k' m.
Proof. intros n k n' k' m H A B w c b c' E. eapply out_wide; eauto. Qed.
Lemma numbl_frames : forall l, Forall (fun r => forall n, numb r n -> frames n (width (erase r)) (match_rx r)) l -> forall n, numbl l n -> Forall (frames n (widths (map erase l))) (map match_rx l).
Proof.
  induction 1 as [|q l Hq _ IHl]; intros m Hl; cbn [map]; constructor; destruct Hl as [H1 H2]; unfold widths; cbn [map sum fold_right]; fold (sum (map width (map erase l))).
  - eapply frames_wide; [apply Hq, H1|lia|lia].
  - specialize (IHl _ H2). eapply Forall_impl; [|exact IHl]. intros a Ha. eapply frames_wide; [exact Ha|lia|]. unfold widths. lia.
Qed.
Lemma rx_frames : forall r n, numb r n -> frames n (width (erase r)) (match_rx r).
Proof.
  induction r as [i l|i l IH|r mn mx IH] using rx_ind2; intros n Hn w c b c' H; cbn [M_Regex.match_rx erase] in *.
  - destruct w as [|x [|y w]]; try (injection H as _ <-; apply out_refl). injection H as _ <-. apply match_comps_out. exact Hn.
  - apply numb_grp in Hn. destruct Hn as [-> Hl]. rewrite width_grp. pose proof (numbl_frames _ IH _ Hl) as Fl.
    assert (F : frames n (1 + widths (map erase l)) (brec [brec (map match_rx l)])). { apply brec_frames. constructor; [|constructor]. eapply frames_wide; [apply brec_frames, Fl|lia|lia]. }
    destruct (brec [brec (map match_rx l)] w (cap_set n [] c)) as [[b0 c0]|] eqn:B; cbn [bind fst snd] in H; [|discriminate]. apply F in B. assert (O : forall v c, out n (1 + widths (map erase l)) c (cap_set n v c)) by (intros v c1 j J; unfold cap_set; destruct (N.eqb_spec j n); [lia|reflexivity]).
    destruct b0; injection H as _ <-; [eapply out_trans; [|apply O]|]; (eapply out_trans; [apply O|exact B]).
  - destruct (_ && _); [injection H as _ <-; apply out_refl|]. eapply rrec_frames; [|exact H]. apply IH. exact Hn.
Qed.
(* ---- what is captured depends on the group's own numbers only ---- *)
Lemma captured_ext : forall p i w c c', (forall j, i <= j < i + width p -> c j = c' j) -> captured p i w c -> captured p i w c'.
Proof.
  induction p as [b l|l IH|p mn mx IH] using pat_ind2; intros i w c c' E H.
  - exact H.
  - apply captured_grp in H. apply captured_grp. destruct H as [A B]. rewrite width_grp in E. split; [rewrite <- E; [exact A|lia]|]. assert (E1 : forall j, i + 1 <= j < i + 1 + widths l -> c j = c' j) by (intros j J; apply E; lia). clear E A.
    revert w B. generalize dependent (i + 1). induction IH as [|q l Hq _ IHl]; intros m E w B; cbn [S_Regex.captured_all] in *; [exact B|]. unfold widths in E. cbn [map sum fold_right] in E. fold (sum (map width l)) in E. destruct B as (u & v & X & Y & Z). exists u, v. splits; [exact X| |].
    + eapply Hq; [|exact Y]. intros j J. apply E. lia.
    + apply IHl; [|exact Z]. intros j J. apply E. unfold widths in J. lia.
  - cbn [S_Regex.captured S_Regex.width] in *. destruct H as (ws & A & B & C & D & F). exists ws. splits; auto. intros a z X. eapply IH; [exact E|]. eapply F; eauto.
Qed.
Lemma captured_all_ext : forall l i w c c', (forall j, i <= j < i + widths l -> c j = c' j) -> captured_all l i w c -> captured_all l i w c'.
Proof.
  induction l as [|q l IH]; intros i w c c' E B; cbn [S_Regex.captured_all] in *; [exact B|]. unfold widths in E. cbn [map sum fold_right] in E. fold (sum (map width l)) in E. destruct B as (u & v & X & Y & Z). exists u, v. splits; [exact X| |].
  - eapply captured_ext; [|exact Y]. intros j J. apply E. lia.
  - eapply IH; [|exact Z]. intros j J. apply E. unfold widths in J. lia.
Qed.
Definition captures (r : rx) : Prop := forall n w c c', numb r n -> match_rx r w c = Ok (true, c') -> captured (erase r) n w c'.
Lemma brec_captures : forall l, Forall captures l -> forall n w c c', numbl l n -> brec (map match_rx l) w c = Ok (true, c') -> captured_all (map erase l) n w c'.
Proof.
  induction 1 as [|q l Hq _ IHl]; intros n w c c' Hn H; cbn [map brec S_Regex.captured_all] in *; [destruct w; [reflexivity|discriminate]|]. destruct Hn as [H1 H2].
  apply tries_spec in H. destruct H as (k & c0 & K & F & _). destruct (match_rx q (firstn k w) c0) as [[b c1]|] eqn:M; cbn [bind fst snd] in F; [|discriminate]. destruct b; [|discriminate]. exists (firstn k w), (skipn k w). splits; [now rewrite firstn_skipn| |eapply IHl; eauto].
  eapply captured_ext; [|eapply Hq; eauto]. intros j J. symmetry.
  assert (Fr : frames (n + width (erase q)) (widths (map erase l)) (brec (map match_rx l))). { apply brec_frames, numbl_frames; [|exact H2]. apply Forall_forall. intros r _ m. apply rx_frames. }
  apply Fr in F. apply F. lia.
Qed.
Lemma rrec_captures : forall r mn mx n, captures r -> numb r n -> forall st k w c c', rrec st (match_rx r) mn mx k w c = Ok (true, c') ->
  exists ws, w = concat ws /\ Forall (lang (erase r)) ws /\ mn <= k + nlen ws /\ (ws <> [] -> k + nlen ws <= mx) /\ (w <> [] -> ws <> []) /\ forall a z, ws = a ++ [z] -> captured (erase r) n z c'.
Proof.
  intros r mn mx n Hr Hn. induction st as [|st IH]; intros k w c c' H; cbn [rrec] in H; [discriminate|]. destruct w as [|x w].
  - apply okj in H. injection H as E _. exists []. change (nlen (@nil (list comp))) with 0. splits; auto; try lia; try contradiction. intros a z X. destruct a; discriminate.
  - destruct (N.leb_spec mx k) as [L0|L0]; [discriminate|]. apply tries_spec in H. destruct H as (t & c0 & K & F & _). destruct (match_rx r (firstn t (x :: w)) c0) as [[b c1]|] eqn:M; cbn [bind fst snd] in F; [|discriminate]. destruct b; [|discriminate].
    destruct (IH _ _ _ _ F) as (ws & E & Fa & A & B & D & G). exists (firstn t (x :: w) :: ws). cbn [concat]. rewrite <- E, firstn_skipn, nlen_cons. splits; [reflexivity| |lia| |discriminate|].
    + constructor; auto. eapply rx_sound; eauto.
    + intros _. destruct ws as [|y ws]; [change (nlen (@nil (list comp))) with 0; lia|]. specialize (B ltac:(discriminate)). lia.
    + intros a z X. destruct ws as [|y ws].
      * destruct a as [|a0 a]; [|destruct a; discriminate]. injection X as <-. cbn [concat] in E. rewrite E in F. destruct st; cbn [rrec] in F; [discriminate|]. injection F as _ <-. eapply Hr; eauto.
      * destruct a as [|a0 a]; [discriminate|]. injection X as _ X. eapply G. exact X.
Qed.
Lemma rx_captures : forall r, captures r.
Proof.
  induction r as [i l|i l IH|r mn mx IH] using rx_ind2; intros n w c c' Hn H.
  - eapply rx_sound in H. exact H.
  - apply numb_grp in Hn. destruct Hn as [-> Hl]. cbn [erase]. apply captured_grp. cbn [M_Regex.match_rx] in H. destruct (brec [brec (map match_rx l)] w (cap_set n [] c)) as [[b0 c0]|] eqn:B; cbn [bind fst snd] in H; [|discriminate]. destruct b0; [|discriminate]. injection H as <-.
    split; [unfold cap_set; now rewrite N.eqb_refl|]. cbn [brec] in B. apply tries_spec in B. destruct B as (k & c1 & K & F & _). destruct (brec (map match_rx l) (firstn k w) c1) as [[b c2]|] eqn:M; cbn [bind fst snd] in F; [|discriminate]. destruct b; [|discriminate]. destruct (skipn k w) eqn:Sk; [|discriminate]. injection F as <-. assert (Ew : firstn k w = w) by (rewrite <- (firstn_skipn k w) at 2; rewrite Sk; now rewrite app_nil_r). rewrite Ew in M.
    eapply captured_all_ext; [|eapply brec_captures; eauto]. intros j J. unfold cap_set. destruct (N.eqb_spec j n); [lia|reflexivity].
  - cbn [M_Regex.match_rx erase S_Regex.captured numb] in *. destruct ((mn =? 0) && _) eqn:Z.
    + destruct w; [|lia]. exists []. change (nlen (@nil (list comp))) with 0. splits; auto; [lia| |intros a z X; destruct a; discriminate]. unfold at_most. destruct (bound mx); [lia|exact I].
    + destruct (rrec_captures _ _ _ _ IH Hn _ _ _ _ _ H) as (ws & E & Fa & A & B & D & G). exists ws. splits; [exact E|exact Fa|lia| |exact G]. unfold at_most, bound. destruct (mx =? two64 - 1); [exact I|]. destruct ws as [|y ws]; [change (nlen (@nil (list comp))) with 0; lia|]. specialize (B ltac:(discriminate)). lia.
Qed.
(* captured says at least that the word is in the language *)
Lemma captured_lang : forall p i w c, captured p i w c -> lang p w.
Proof.
  induction p as [b l|l IH|p mn mx IH] using pat_ind2; intros i w c H.
  - exact H.
  - apply captured_grp in H. destruct H as [_ B]. cbn [S_Regex.lang]. revert w B. generalize (i + 1). induction IH as [|q l Hq _ IHl]; intros m w B; cbn [S_Regex.captured_all map in_sequence] in *; [exact B|]. destruct B as (u & v & X & Y & Z). exists u, v. splits; eauto.
  - cbn [S_Regex.captured S_Regex.lang] in *. destruct H as (ws & A & B & C & D & _). exists ws. splits; auto.
Qed.
End C.
