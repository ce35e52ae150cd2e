From Coq Require Import List Lia ZifyBool ZifyNat ZifyN Arith.
From Verif Require Import Base BaseLemmas M_Str M_Name M_Regex S_Regex.
Import ListNotations.
Open Scope N_scope.

Lemma okj : forall A (x y : A), Ok x = Ok y -> x = y.
Proof. intros A x y H. injection H; auto. Qed.
(* ---- the loop ---- *)
Lemma tries_spec : forall f n c b c', tries n f c = Ok (b, c') ->
  if b then exists k c0, (k <= n)%nat /\ f k c0 = Ok (true, c') /\ forall j, (k < j <= n)%nat -> exists c1 c2, f j c1 = Ok (false, c2)
  else forall k, (k <= n)%nat -> exists c1 c2, f k c1 = Ok (false, c2).
Proof.
  intros f. induction n as [|n IH]; intros c b c' H; cbn [tries] in H; destruct (f _ c) as [[b0 c0]|] eqn:F; cbn [bind fst snd] in H; try discriminate.
  - destruct b0; apply okj in H; injection H as <- <-; [exists O, c; splits; auto; intros j J; lia|]. intros k K. assert (k = O) by lia. subst. eauto.
  - destruct b0; [apply okj in H; injection H as <- <-; exists (S n), c; splits; auto; intros j J; lia|]. apply IH in H. destruct b.
    + destruct H as (k & c1 & K & Fk & J). exists k, c1. splits; auto. intros j Hj. destruct (Nat.eq_dec j (S n)) as [->|]; [eauto|]. apply J. lia.
    + intros k K. destruct (Nat.eq_dec k (S n)) as [->|]; [eauto|]. apply H. lia.
Qed.
Lemma tries_ok : forall f n c, (forall k c, (k <= n)%nat -> exists b c', f k c = Ok (b, c')) -> exists b c', tries n f c = Ok (b, c').
Proof.
  intros f. induction n as [|n IH]; intros c H; cbn [tries]; destruct (H _ c (le_n _)) as (b & c' & E); rewrite E; cbn [bind fst snd]; destruct b; eauto.
Qed.
(* an invariant of the state *)
Lemma tries_inv : forall (I : caps -> Prop) f n c b c', (forall k c b c', (k <= n)%nat -> I c -> f k c = Ok (b, c') -> I c') -> I c -> tries n f c = Ok (b, c') -> I c'.
Proof.
  intros I f. induction n as [|n IH]; intros c b c' Hf Hc H; cbn [tries] in H; destruct (f _ c) as [[b0 c0]|] eqn:F; cbn [bind fst snd] in H; try discriminate; pose proof (Hf _ _ _ _ (le_n _) Hc F) as H0.
  - destruct b0; apply okj in H; injection H as _ <-; exact H0.
  - destruct b0; [apply okj in H; injection H as _ <-; exact H0|]. eapply (IH c0); [|exact H0|exact H]. intros k1 c1 b1 c2 L. apply Hf. lia.
Qed.
(* ---- induction over matchers ---- *)
Lemma rx_ind2 (P : rx -> Prop) (Hs : forall i l, P (RSet i l)) (Hg : forall i l, Forall P l -> P (RGrp i l)) (Hr : forall r mn mx, P r -> P (RRep r mn mx)) : forall r, P r.
Proof.
  fix IH 1. intros [i l|i l|r mn mx]; [apply Hs|apply Hg|apply Hr, IH]. induction l as [|x l IHl]; constructor; [apply IH|exact IHl].
Qed.
Lemma pat_ind2 (P : pat -> Prop) (Hs : forall i l, P (PSet i l)) (Hg : forall l, Forall P l -> P (PGrp l)) (Hr : forall p mn mx, P p -> P (PRep p mn mx)) : forall p, P p.
Proof.
  fix IH 1. intros [i l|l|p mn mx]; [apply Hs|apply Hg|apply Hr, IH]. induction l as [|x l IHl]; constructor; [apply IH|exact IHl].
Qed.
Fixpoint erase (r : rx) : pat :=
  match r with RSet i l => PSet i (map rc_expr l) | RGrp _ l => PGrp (map erase l) | RRep r mn mx => PRep (erase r) mn (bound mx) end.

Section R.
Variable re_match : bytes -> bytes -> option (list bytes).
Variable uf : uri_format.
Variable stack : nat.
Notation match_rx := (match_rx re_match uf stack).
Notation acc := (acc re_match).
Notation lang := (lang acc uf).
Notation langs := (langs acc uf).
Notation solid := (solid acc uf).

Lemma match_comp_spec : forall x w c b c', match_comp re_match uf x w c = (b, c') -> (b = true <-> comp_in acc uf (rc_expr x) w).
Proof.
  intros x w c b c' H. unfold match_comp in H. unfold comp_in, acc. destruct (rc_expr x) as [|e0 e]; [injection H as <- _; split; auto|]. destruct (re_match (e0 :: e) (comp_toUri uf w)); injection H as <- _; split; intro X; auto; try discriminate; try (right; discriminate). destruct X as [X|X]; [discriminate|congruence].
Qed.
Lemma match_comps_spec : forall l w c b c', match_comps re_match uf l w c = (b, c') -> (b = true <-> exists e, In e (map rc_expr l) /\ comp_in acc uf e w).
Proof.
  induction l as [|x l IH]; intros w c b c' H; cbn [match_comps] in H; [injection H as <- _; split; [discriminate|intros (e & [] & _)]|]. destruct (match_comp re_match uf x w c) as [b0 c0] eqn:M. cbn [fst snd] in H. pose proof (match_comp_spec _ _ _ _ _ M) as S0. destruct b0.
  - injection H as <- _. split; auto. intros _. exists (rc_expr x). split; [now left|]. now apply S0.
  - apply IH in H. rewrite H. split; intros (e & I & A); exists e; (split; [|exact A]); [now right|]. destruct I as [<-|I]; [|exact I]. apply S0 in A. discriminate.
Qed.
(* ---- soundness ---- *)
Definition sound (m : matcher) (L : list comp -> Prop) : Prop := forall w c c', m w c = Ok (true, c') -> L w.
Lemma brec_sound : forall ms Ls, Forall2 sound ms Ls -> sound (brec ms) (in_sequence Ls).
Proof using. clear re_match uf stack.
  induction 1 as [|m L ms Ls Hm _ IH]; intros w c c' H; cbn [brec in_sequence] in *.
  - destruct w; [reflexivity|discriminate].
  - apply tries_spec in H. destruct H as (k & c0 & K & F & _). destruct (m (firstn k w) c0) as [[b c1]|] eqn:M; cbn [bind fst snd] in F; [|discriminate]. destruct b; [|discriminate]. exists (firstn k w), (skipn k w). splits; [now rewrite firstn_skipn|eapply Hm; eauto|eapply IH; eauto].
Qed.
Lemma rrec_sound : forall m L mn mx, sound m L -> forall st k w c c', rrec st m mn mx k w c = Ok (true, c') -> k <= mx -> exists ws, w = concat ws /\ Forall L ws /\ mn <= k + nlen ws /\ (ws <> [] -> k + nlen ws <= mx).
Proof using. clear re_match uf stack.
  intros m L mn mx Hm. induction st as [|st IH]; intros k w c c' H Hk; cbn [rrec] in H; [discriminate|]. destruct w as [|x w].
  - apply okj in H. injection H as E _. exists []. change (nlen (@nil (list comp))) with 0. splits; auto; [lia|]. intro X. contradiction.
  - destruct (N.leb_spec mx k) as [L0|L0]; [discriminate|]. apply tries_spec in H. destruct H as (t & c0 & K & F & _). destruct (m (firstn t (x :: w)) c0) as [[b c1]|] eqn:M; cbn [bind fst snd] in F; [|discriminate]. destruct b; [|discriminate].
    destruct (IH _ _ _ _ F) as (ws & E & Fa & A & B); [lia|]. exists (firstn t (x :: w) :: ws). cbn [concat]. rewrite <- E, firstn_skipn. rewrite nlen_cons. splits; auto; [constructor; auto; eapply Hm; eauto|lia|].
    intros _. destruct ws as [|y ws]; [change (nlen (@nil (list comp))) with 0; lia|]. specialize (B ltac:(discriminate)). lia.
Qed.
Lemma rx_sound : forall r, sound (match_rx r) (lang (erase r)).
Proof.
  induction r as [i l|i l IH|r mn mx IH] using rx_ind2; intros w c c' H; cbn [M_Regex.match_rx erase S_Regex.lang] in *.
  - destruct w as [|x [|y w]]; try discriminate. destruct (match_comps re_match uf l x c) as [b c0] eqn:M. pose proof (match_comps_spec _ _ _ _ _ M) as S0. apply okj in H. injection H as E _. cbn [fst] in E. destruct i; cbn [S_Regex.lang]; exists x; (split; [reflexivity|]); destruct b; try discriminate.
    + now apply S0.
    + intros e I A. assert (X : false = true) by (apply S0; eauto). discriminate.
  - destruct (brec _ w _) as [[b c0]|] eqn:B; cbn [bind fst snd] in H; [|discriminate]. destruct b; [|discriminate]. clear H. cbn [brec] in B. apply tries_spec in B. destruct B as (k & c1 & K & F & _). destruct (brec (map match_rx l) (firstn k w) c1) as [[b c2]|] eqn:M; cbn [bind fst snd] in F; [|discriminate]. destruct b; [|discriminate].
    destruct (skipn k w) eqn:Sk; [|discriminate]. assert (Ew : firstn k w = w) by (rewrite <- (firstn_skipn k w) at 2; rewrite Sk; now rewrite app_nil_r). rewrite Ew in M. eapply brec_sound; [|exact M]. rewrite map_map. clear - IH. induction IH as [|x l Hx _ IHl]; cbn [map]; constructor; auto.
  - destruct ((mn =? 0) && _) eqn:Z.
    + destruct w; [|lia]. exists []. change (nlen (@nil (list comp))) with 0. splits; auto; [lia|]. unfold at_most. destruct (bound mx); [lia|exact I].
    + destruct (rrec_sound _ _ _ _ IH _ _ _ _ _ H) as (ws & E & Fa & A & B); [lia|]. exists ws. splits; [exact E|exact Fa|lia|]. unfold at_most, bound. destruct (mx =? two64 - 1); [exact I|]. destruct ws as [|y ws]; [change (nlen (@nil (list comp))) with 0; lia|]. specialize (B ltac:(discriminate)). lia.
Qed.
(* ---- exactness ---- *)
Definition decides (n : nat) (m : matcher) (L : list comp -> Prop) : Prop := forall w c, (length w <= n)%nat -> exists b c', m w c = Ok (b, c') /\ (b = true <-> L w).
Lemma firstn_le' : forall A k n (w : list A), (length w <= n)%nat -> (length (firstn k w) <= n)%nat.
Proof using. clear re_match uf stack. intros. rewrite firstn_length. lia. Qed.
Lemma brec_decides : forall n ms Ls, Forall2 (decides n) ms Ls -> decides n (brec ms) (in_sequence Ls).
Proof using. clear re_match uf stack.
  intros n. induction 1 as [|m L ms Ls Hm _ IH]; intros w c Hw; cbn [brec in_sequence].
  - exists (match w with [] => true | _ => false end), c. split; [reflexivity|]. destruct w; split; auto; discriminate.
  - set (f := fun k c0 => _). assert (Hf : forall k c, (k <= length w)%nat -> exists b c', f k c = Ok (b, c') /\ (b = true <-> L (firstn k w) /\ in_sequence Ls (skipn k w))).
    { intros k c0 K. unfold f. destruct (Hm (firstn k w) c0) as (b & c1 & E & S0); [now apply firstn_le'|]. rewrite E. cbn [bind fst snd]. destruct b.
      - destruct (IH (skipn k w) c1) as (b2 & c2 & E2 & S2); [rewrite skipn_length; lia|]. exists b2, c2. split; [exact E2|]. rewrite S2. split; [intro X; split; [now apply S0|exact X]|tauto].
      - exists false, c1. split; [reflexivity|]. split; [discriminate|]. intros [X _]. now apply S0. }
    destruct (tries_ok f (length w) c) as (b & c' & E); [intros k c0 K; destruct (Hf k c0 K) as (b & c' & E & _); eauto|]. exists b, c'. split; [exact E|]. apply tries_spec in E. destruct b.
    + split; auto. intros _. destruct E as (k & c0 & K & F & _). destruct (Hf k c0 K) as (b & c1 & E & S0). rewrite F in E. injection E as <- <-. destruct (proj1 S0 eq_refl) as [A B]. exists (firstn k w), (skipn k w). splits; auto. now rewrite firstn_skipn.
    + split; [discriminate|]. intros (u & v & -> & A & B). destruct (E (length u)) as (c1 & c2 & F); [rewrite app_length; lia|]. destruct (Hf (length u) c1) as (b & c3 & F2 & S0); [rewrite app_length; lia|]. rewrite F in F2. injection F2 as <- <-. apply S0. rewrite firstn_app, skipn_app, Nat.sub_diag, firstn_all, skipn_all. cbn. rewrite app_nil_r. auto.
Qed.
Lemma rrec_decides : forall n m L mn mx, decides n m L -> ~ L [] -> (forall k, (N.of_nat k <= N.of_nat n) -> True) -> forall st k w c, (length w < st)%nat -> (length w <= n)%nat ->
  exists b c', rrec st m mn mx k w c = Ok (b, c') /\ (b = true <-> exists ws, w = concat ws /\ Forall L ws /\ mn <= k + nlen ws /\ (ws <> [] -> k + nlen ws <= mx)).
Proof using. clear re_match uf stack.
  intros n m L mn mx Hm Ne _. induction st as [|st IH]; intros k w c Hst Hn; [lia|]. cbn [rrec]. destruct w as [|x w].
  - exists (mn <=? k), c. split; [reflexivity|]. split.
    + intro E. exists []. change (nlen (@nil (list comp))) with 0. splits; auto; [lia|]. intro X; contradiction.
    + intros (ws & E & Fa & A & _). destruct ws as [|y ws]; [change (nlen (@nil (list comp))) with 0 in A; lia|]. cbn [concat] in E. destruct y; [inversion Fa; contradiction|discriminate].
  - destruct (N.leb_spec mx k) as [L0|L0].
    { exists false, c. split; [reflexivity|]. split; [discriminate|]. intros (ws & E & Fa & A & B). destruct ws as [|y ws]; [discriminate|]. specialize (B ltac:(discriminate)). rewrite nlen_cons in B. lia. }
    set (W := x :: w) in *. set (f := fun t c0 => _).
    assert (Hf : forall t c, (t <= length W)%nat -> exists b c', f t c = Ok (b, c') /\ (b = true <-> L (firstn t W) /\ exists ws, skipn t W = concat ws /\ Forall L ws /\ mn <= k + 1 + nlen ws /\ (ws <> [] -> k + 1 + nlen ws <= mx))).
    { intros t c0 T. unfold f. destruct (Hm (firstn t W) c0) as (b & c1 & E & S0); [now apply firstn_le'|]. rewrite E. cbn [bind fst snd]. destruct b.
      - assert (T0 : t <> O) by (intros ->; apply Ne; now apply S0). destruct (IH (k + 1) (skipn t W) c1) as (b2 & c2 & E2 & S2); [rewrite skipn_length; lia|rewrite skipn_length; lia|]. exists b2, c2. split; [exact E2|]. rewrite S2. split; [intro X; split; [now apply S0|exact X]|tauto].
      - exists false, c1. split; [reflexivity|]. split; [discriminate|]. intros [X _]. now apply S0. }
    destruct (tries_ok f (length W) c) as (b & c' & E); [intros t c0 T; destruct (Hf t c0 T) as (b & c' & E & _); eauto|]. exists b, c'. split; [exact E|]. apply tries_spec in E. destruct b.
    + split; auto. intros _. destruct E as (t & c0 & T & F & _). destruct (Hf t c0 T) as (b & c1 & E & S0). rewrite F in E. injection E as <- <-. destruct (proj1 S0 eq_refl) as (A & ws & Ew & Fa & B & C). exists (firstn t W :: ws). cbn [concat]. rewrite <- Ew, firstn_skipn, nlen_cons. splits; auto; [lia|].
      intros _. destruct ws as [|y ws]; [change (nlen (@nil (list comp))) with 0; lia|]. specialize (C ltac:(discriminate)). lia.
    + split; [discriminate|]. intros (ws & Ew & Fa & B & C). destruct ws as [|u ws]; [discriminate|]. specialize (C ltac:(discriminate)). rewrite nlen_cons in *. cbn [concat] in Ew. inversion Fa as [|? ? Fu Fw]; subst.
      assert (Lu : (length u <= length W)%nat) by (rewrite Ew, app_length; lia). destruct (E (length u) Lu) as (c1 & c2 & F). destruct (Hf (length u) c1 Lu) as (b & c3 & F2 & S0). rewrite F in F2. injection F2 as <- <-. apply S0.
      rewrite Ew, firstn_app, skipn_app, Nat.sub_diag, firstn_all, skipn_all. cbn. rewrite app_nil_r. split; [exact Fu|]. exists ws. splits; auto; lia.
Qed.
Lemma rx_decides : forall n, (n < stack)%nat -> N.of_nat n < two64 - 1 -> forall r, solid (erase r) -> decides n (match_rx r) (lang (erase r)).
Proof.
  intros n Hs Hn. induction r as [i l|i l IH|r mn mx IH] using rx_ind2; intros So w c Hw; cbn [M_Regex.match_rx erase S_Regex.lang S_Regex.solid] in *.
  - destruct w as [|x [|y w]]; try (exists false, c; split; [reflexivity|]; split; [discriminate|]; destruct i; intros (z & E & _); discriminate). destruct (match_comps re_match uf l x c) as [b c0] eqn:M. pose proof (match_comps_spec _ _ _ _ _ M) as S0. cbn [fst snd]. exists (Bool.eqb i b), c0. split; [reflexivity|]. destruct i; cbn [S_Regex.lang].
    + rewrite Bool.eqb_true_iff. split; [intros <-; exists x; split; [reflexivity|now apply S0]|]. intros (z & E & Q). injection E as <-. symmetry. now apply S0.
    + rewrite Bool.eqb_true_iff. split; [intros <-; exists x; split; [reflexivity|]; intros e I A; assert (X : false = true) by (apply S0; eauto); discriminate|]. intros (z & E & Q). injection E as <-. destruct b; [|reflexivity]. destruct (proj1 S0 eq_refl) as (e & I & A). contradiction (Q e I A).
  - assert (D : decides n (brec (map match_rx l)) (in_sequence (map lang (map erase l)))).
    { apply brec_decides. rewrite map_map. rewrite map_map in So. clear - IH So. induction IH as [|x l Hx _ IHl]; cbn [map fold_right] in *; constructor; tauto. }
    assert (D1 : decides n (brec [brec (map match_rx l)]) (in_sequence [in_sequence (map lang (map erase l))])) by (apply brec_decides; repeat constructor; exact D).
    destruct (D1 w (cap_set i [] c) Hw) as (b & c' & E & S0). rewrite E. cbn [bind fst snd]. exists b. destruct b.
    + exists (cap_set i w c'). split; [reflexivity|]. split; auto. intros _. destruct (proj1 S0 eq_refl) as (u & v & -> & A & B). cbn in B. subst v. now rewrite app_nil_r.
    + exists c'. split; [reflexivity|]. split; [discriminate|]. intro X. apply S0. exists w, []. rewrite app_nil_r. cbn. auto.
  - destruct So as [So Ne]. specialize (IH So). destruct ((mn =? 0) && _) eqn:Z.
    + exists true, c. split; [reflexivity|]. split; auto. intros _. destruct w; [|lia]. exists []. change (nlen (@nil (list comp))) with 0. splits; auto; [lia|]. unfold at_most. destruct (bound mx); [lia|exact I].
    + destruct (rrec_decides n _ _ mn mx IH Ne (fun _ _ => I) stack 0 w c) as (b & c' & E & S0); [lia|exact Hw|]. exists b, c'. split; [exact E|]. rewrite S0. split; intros (ws & Ew & Fa & A & B); exists ws; (splits; [exact Ew|exact Fa|lia|]).
      * unfold at_most, bound. destruct (mx =? two64 - 1); [exact I|]. destruct ws as [|y ws]; [change (nlen (@nil (list comp))) with 0; lia|]. specialize (B ltac:(discriminate)). lia.
      * intros _. unfold at_most, bound in B. destruct (N.eqb_spec mx (two64 - 1)) as [->|]; [|lia]. assert (Ln : (length ws <= length w)%nat).
        { rewrite Ew. clear - Fa Ne. induction Fa as [|u ws Fu _ IHw]; [reflexivity|]. cbn [concat length]. rewrite app_length. destruct u; [contradiction|]. cbn [length]. lia. }
        unfold nlen. lia.
Qed.
End R.
