(* Proofs about name resolution. *)
From Coq Require Import Lia.
From Verif Require Import Base BaseLemmas M_Dns S_Dns.
Open Scope list_scope.

Section P.
Variable A : Type.
Variable sel : A -> bool.
Notation run := (dns_run A sel true true).
Notation out s evs := (snd (run s evs)).
Notation calls := (dns_calls A sel true true).
Notation rc := (result_calls A sel true true).

Lemma out_cons : forall s e evs, out s (e :: evs) = snd (dns_step A sel true true s e) ++ out (fst (dns_step A sel true true s e)) evs.
Proof. intros s e evs. cbn [dns_run]. destruct (dns_step A sel true true s e) as [s1 c1]. cbn [fst snd]. now destruct (run s1 evs). Qed.
Lemma out_app : forall a b s, out s (a ++ b) = out s a ++ out (fst (run s a)) b.
Proof.
  induction a as [|e a IH]; intros b s; [reflexivity|]. cbn [app]. rewrite !out_cons, IH, app_assoc. f_equal. cbn [dns_run]. destruct (dns_step A sel true true s e) as [s1 c1]. cbn [fst]. now destruct (run s1 a).
Qed.
Lemma over : forall evs, run (mkDns OOver false) evs = (mkDns OOver false, []).
Proof. induction evs as [|e evs IH]; [reflexivity|]. cbn [dns_run]. destruct e; cbn [dns_step d_op d_timer]; now rewrite IH. Qed.
Lemma first_deserves : forall l, exists c, deserves A sel (Addrs l) c /\ first_match A sel true true l = [c].
Proof.
  induction l as [|a l (c & D & E)]; cbn [first_match].
  - eexists. split; [apply ds_none; intros x []|reflexivity].
  - destruct (sel a) eqn:S.
    + eexists. split; [apply ds_addr; exists [], l; split; [reflexivity|]; split; [exact S|]; intros x []|reflexivity].
    + exists c. split; auto. inversion D as [l0 b (l1 & l2 & -> & Sb & N) E1|l0 N E1|]; subst.
      * apply ds_addr. exists (a :: l1), l2. splits; auto. intros x [<-|I]; auto.
      * apply ds_none. intros x [<-|I]; auto.
Qed.
Lemma answer_deserves : forall r, exists c, deserves A sel r c /\ rc (Answer r) = [c].
Proof. intros [l|m]; cbn [result_calls]; [apply first_deserves|]. eexists. split; [constructor|reflexivity]. Qed.
(* the handler waits, the timer is off *)
Lemma ready_off : forall r evs, (~ In EvResult evs /\ out (mkDns (OReady r) false) evs = []) \/ (In EvResult evs /\ out (mkDns (OReady r) false) evs = rc r).
Proof.
  intro r. induction evs as [|e evs IH]; [left; split; auto|]. rewrite out_cons. destruct e as [q| |]; cbn [dns_step d_op d_timer fst snd app].
  - destruct IH as [(N & E)|(N & E)]; [left; split; auto; intros [?|?]; [discriminate|auto]|right; split; auto; now right].
  - right. split; [now left|]. rewrite over. apply app_nil_r.
  - destruct IH as [(N & E)|(N & E)]; [left; split; auto; intros [?|?]; [discriminate|auto]|right; split; auto; now right].
Qed.
(* nothing but answers: the state waits *)
Lemma ready_on_skip : forall r l, ~ In EvResult l -> ~ In EvTimeout l -> run (mkDns (OReady r) true) l = (mkDns (OReady r) true, []).
Proof.
  intro r. induction l as [|e l IH]; intros N M; [reflexivity|]. cbn [dns_run]. destruct e; cbn [dns_step d_op].
  - rewrite IH; auto; intro I; [apply N|apply M]; now right.
  - exfalso. apply N. now left.
  - exfalso. apply M. now left.
Qed.
Lemma working_skip : forall l, ~ In EvTimeout l -> (forall r, ~ In (EvResolved r) l) -> run (dns_init A) l = (dns_init A, []).
Proof.
  induction l as [|e l IH]; intros N M; [reflexivity|]. cbn [dns_run]. destruct e; cbn [dns_step dns_init d_op].
  - exfalso. apply (M r). now left.
  - rewrite IH; auto; [intro I; apply N; now right|intros r I; apply (M r); now right].
  - exfalso. apply N. now left.
Qed.
Lemma split_first : forall (P : devent A -> bool) l, (exists a e b, l = a ++ e :: b /\ P e = true /\ forall x, In x a -> P x = false) \/ (forall x, In x l -> P x = false).
Proof.
  intros P. induction l as [|x l IH]; [right; intros x []|]. destruct (P x) eqn:E.
  - left. exists [], x, l. splits; auto; try (intros y []).
  - destruct IH as [(a & e & b & -> & Pe & N)|N]; [left; exists (x :: a), e, b; splits; auto; intros y [<-|I]; auto|right; intros y [<-|I]; auto].
Qed.
Definition notable (e : devent A) : bool := match e with EvResult => false | _ => true end.
Definition loop_ev (e : devent A) : bool := match e with EvResolved _ => false | _ => true end.
Lemma skip_calls : forall l1 r rest, ~ In EvTimeout l1 -> (forall r', ~ In (EvResolved r') l1) -> calls (l1 ++ EvResolved r :: rest) = out (mkDns (OReady (Answer r)) true) rest.
Proof.
  intros l1 r rest N M. unfold dns_calls. rewrite out_app, (working_skip l1 N M). cbn [fst snd app]. rewrite out_cons. cbn [dns_step dns_init d_op d_timer fst snd app]. reflexivity.
Qed.
Lemma timeout_first : forall l1 l2, (forall r, ~ In (EvResolved r) l1) -> calls (l1 ++ EvTimeout :: l2) = [timed_out A].
Proof.
  intros l1 l2 N. destruct (split_first (fun e => match e with EvTimeout => true | _ => false end) l1) as [(a & e & b & -> & Pe & M)|M].
  - destruct e; try discriminate. rewrite <- app_assoc. cbn [app]. unfold dns_calls. rewrite out_app, (working_skip a).
    + cbn [fst snd app]. rewrite out_cons. cbn [dns_step dns_init d_op d_timer fst snd]. destruct (ready_off Aborted (b ++ EvTimeout :: l2)) as [(_ & ->)|(_ & ->)]; reflexivity.
    + intro I. apply M in I. discriminate.
    + intros r I. apply (N r). apply in_or_app. now left.
  - unfold dns_calls. rewrite out_app, (working_skip l1); auto.
    + cbn [fst snd app]. rewrite out_cons. cbn [dns_step dns_init d_op d_timer fst snd]. destruct (ready_off Aborted l2) as [(_ & ->)|(_ & ->)]; reflexivity.
    + intro I. apply M in I. discriminate.
Qed.
Lemma result_first : forall evs r rest l2 l3, in_time A evs r rest -> rest = l2 ++ EvResult :: l3 -> ~ In EvTimeout l2 -> exists c, deserves A sel r c /\ calls evs = [c].
Proof.
  intros evs r rest l2 l3 (l1 & -> & N & M) -> T. rewrite skip_calls by auto. destruct (answer_deserves r) as (c & D & E). exists c. split; auto.
  destruct (split_first (fun e => match e with EvResult => true | _ => false end) l2) as [(a & e & b & -> & Pe & Q)|Q].
  - destruct e; try discriminate. rewrite <- app_assoc. cbn [app]. rewrite out_app, ready_on_skip.
    + cbn [fst snd app]. rewrite out_cons. cbn [dns_step d_op fst snd]. rewrite over, E. reflexivity.
    + intro I. apply Q in I. discriminate.
    + intro I. apply T. apply in_or_app. now left.
  - rewrite out_app, ready_on_skip; auto.
    + cbn [fst snd app]. rewrite out_cons. cbn [dns_step d_op fst snd]. rewrite over, E. reflexivity.
    + intro I. apply Q in I. discriminate.
Qed.
Lemma schedules : forall evs,
  (calls evs = [] /\ ~ settled A evs) \/
  (exists r rest c, in_time A evs r rest /\ deserves A sel r c /\ calls evs = [c]) \/
  (In EvTimeout evs /\ calls evs = [timed_out A] /\ forall r, ~ overtaken A evs r) \/
  (exists r c, overtaken A evs r /\ deserves A sel r c /\ calls evs = [timed_out A; c]).
Proof.
  intro evs. destruct (split_first notable evs) as [(a & e & b & -> & Pe & M)|M].
  - assert (N1 : ~ In EvTimeout a) by (intro I; apply M in I; discriminate). assert (N2 : forall r, ~ In (EvResolved r) a) by (intros r I; apply M in I; discriminate).
    destruct e as [r| |]; [|discriminate|].
    + assert (IT : in_time A (a ++ EvResolved r :: b) r b) by (exists a; auto).
      assert (U : forall r' rest', in_time A (a ++ EvResolved r :: b) r' rest' -> r' = r /\ rest' = b).
      { intros r' rest' (l & E & Q1 & Q2). clear -E N1 N2 Q2. revert l E Q2. induction a as [|x a IH]; intros l E Q2; destruct l as [|y l]; cbn [app] in E.
        - injection E as -> ->. auto.
        - exfalso. injection E as <- _. apply (Q2 r). now left.
        - exfalso. injection E as -> _. apply (N2 r'). now left.
        - injection E as -> E. apply (IH ltac:(intro I; apply N1; now right) ltac:(intros r0 I; apply (N2 r0); now right) l E). intros r0 I. apply (Q2 r0). now right. }
      destruct (split_first loop_ev b) as [(l2 & e & l3 & -> & Pe2 & M2)|M2].
      * assert (R1 : ~ In EvResult l2) by (intro I; apply M2 in I; discriminate). assert (R2 : ~ In EvTimeout l2) by (intro I; apply M2 in I; discriminate). destruct e as [q| |]; [discriminate| |].
        -- right. left. destruct (result_first _ r _ l2 l3 IT eq_refl R2) as (c & D & E). exists r, (l2 ++ EvResult :: l3), c. auto.
        -- right. right. assert (E : calls (a ++ EvResolved r :: l2 ++ EvTimeout :: l3) = timed_out A :: out (mkDns (OReady (Answer r)) false) l3).
           { rewrite skip_calls by auto. rewrite out_app, ready_on_skip by auto. cbn [fst snd app]. rewrite out_cons. reflexivity. }
           destruct (ready_off (Answer r) l3) as [(N & Er)|(N & Er)]; rewrite Er in E.
           ++ left. splits; auto; [apply in_or_app; right; right; apply in_or_app; right; now left|]. intros r' (rest & u & v & I & -> & Nu & Iv). apply U in I as (-> & I). clear -I Nu Iv N R2 R1.
              revert u I Nu. induction l2 as [|x l2 IH]; intros u I Nu; destruct u as [|y u]; cbn [app] in I.
              ** injection I as ->. contradiction.
              ** injection I as _ <-. apply N. apply in_or_app. right. now right.
              ** injection I as <- _. apply R2. now left.
              ** injection I as -> I. apply (IH ltac:(intro J; apply R1; now right) ltac:(intro J; apply R2; now right) u I). intro J. apply Nu. now right.
           ++ right. destruct (answer_deserves r) as (c & D & Ec). rewrite Ec in E. exists r, c. splits; auto. exists (l2 ++ EvTimeout :: l3), l2, l3. auto.
      * left. split.
        -- rewrite skip_calls by auto. rewrite ready_on_skip; auto; intro I; apply M2 in I; discriminate.
        -- intros [I|(r' & rest & I & J)].
           ++ apply in_app_or in I as [I|[I|I]]; [contradiction|discriminate|apply M2 in I; discriminate].
           ++ apply U in I as (-> & ->). apply M2 in J. discriminate.
    + right. right. left. splits; [apply in_or_app; right; now left|now apply timeout_first|]. intros r (rest & u & v & (l & E & Q1 & Q2) & _). clear -E N1 N2 Q1. revert l E Q1. induction a as [|x a IH]; intros l E Q1; destruct l as [|y l]; cbn [app] in E.
      * discriminate.
      * injection E as <- _. apply Q1. now left.
      * injection E as -> _. apply (N2 r). now left.
      * injection E as -> E. apply (IH ltac:(intro I; apply N1; now right) ltac:(intros r0 I; apply (N2 r0); now right) l E). intro I. apply Q1. now right.
  - left. split.
    + unfold dns_calls. rewrite working_skip; auto; [intro I|intros r I]; apply M in I; discriminate.
    + intros [I|(r & rest & (l & -> & _) & _)]; [apply M in I; discriminate|]. assert (I : In (EvResolved r) (l ++ EvResolved r :: rest)) by (apply in_or_app; right; now left). apply M in I. discriminate.
Qed.
End P.
(* empty callbacks *)
Definition heard (A : Type) (hasS hasE : bool) (c : call A) : bool := match c with CallSuccess _ => hasS | CallError _ => hasE end.
Lemma filter_app' : forall (T : Type) (f : T -> bool) a b, filter f (a ++ b) = filter f a ++ filter f b.
Proof. intros T f. induction a as [|x a IH]; intro b; [reflexivity|]. cbn [app filter]. destruct (f x); rewrite IH; reflexivity. Qed.
Lemma run_heard : forall A sel hasS hasE evs s,
  fst (dns_run A sel hasS hasE s evs) = fst (dns_run A sel true true s evs) /\ snd (dns_run A sel hasS hasE s evs) = filter (heard A hasS hasE) (snd (dns_run A sel true true s evs)).
Proof.
  intros A sel hasS hasE. assert (Er : forall m, err_call A hasE m = filter (heard A hasS hasE) (err_call A true m)) by (intro m; unfold err_call; cbn [filter heard]; now destruct hasE).
  assert (Fm : forall l, first_match A sel hasS hasE l = filter (heard A hasS hasE) (first_match A sel true true l)) by (induction l as [|a l IH]; cbn [first_match]; [apply Er|destruct (sel a); auto; cbn [filter heard]; now destruct hasS]).
  assert (Rc : forall r, result_calls A sel hasS hasE r = filter (heard A hasS hasE) (result_calls A sel true true r)) by (intros [[l|m]|]; cbn [result_calls]; [apply Fm|apply Er|reflexivity]).
  assert (St : forall s e, dns_step A sel hasS hasE s e = (fst (dns_step A sel true true s e), filter (heard A hasS hasE) (snd (dns_step A sel true true s e)))).
  { intros s e. destruct e; cbn [dns_step]; [destruct (d_op s); reflexivity|destruct (d_op s); cbn [fst snd]; rewrite ?Rc; reflexivity|destruct (d_timer s); cbn [fst snd]; rewrite ?Er; reflexivity]. }
  induction evs as [|e evs IH]; intro s; [split; reflexivity|]. cbn [dns_run]. rewrite St. destruct (dns_step A sel true true s e) as [s1 c1]. cbn [fst snd]. destruct (IH s1) as (E1 & E2).
  destruct (dns_run A sel hasS hasE s1 evs) as [s2 c2]. destruct (dns_run A sel true true s1 evs) as [s3 c3]. cbn [fst snd] in *. subst. split; auto. now rewrite filter_app'.
Qed.
