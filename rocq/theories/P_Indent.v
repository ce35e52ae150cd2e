(* Proofs about indented streams. *)
From Coq Require Import Lia ZifyBool ZifyN.
From Verif Require Import Base BaseLemmas M_Indent S_Indent.
Open Scope list_scope.
Open Scope N_scope.

Lemma split_some : forall t, split_lines t <> [].
Proof. destruct t as [|c t]; cbn; [discriminate|]. destruct (c =? newline); [discriminate|]. destruct (split_lines t); discriminate. Qed.
Lemma split_line : forall l t, ~ In 10 l -> split_lines (l ++ [10] ++ t) = l :: split_lines t.
Proof.
  induction l as [|c l IH]; intros t N; [reflexivity|]. cbn [app split_lines]. replace (c =? newline) with false by (unfold newline; cbn in N; lia).
  cbn [app] in IH. rewrite IH; auto. intro I. apply N. now right.
Qed.
Lemma split_rest : forall l, ~ In 10 l -> split_lines l = [l].
Proof.
  induction l as [|c l IH]; intro N; [reflexivity|]. cbn [split_lines]. replace (c =? newline) with false by (unfold newline; cbn in N; lia). rewrite IH; auto. intro I. apply N. now right.
Qed.
Lemma sync_line : forall p l t, ~ In 10 l -> ist_sync p (l ++ [10] ++ t) = p ++ l ++ [10] ++ ist_sync p t.
Proof.
  intros p l t N. unfold ist_sync. rewrite split_line by auto. pose proof (split_some t) as S. destruct (split_lines t) as [|x r] eqn:E; [contradiction|].
  change (drop_empty_last (l :: x :: r)) with (l :: drop_empty_last (x :: r)). cbn [flat_map]. now rewrite <- !app_assoc.
Qed.
Lemma sync_rest : forall p l, ~ In 10 l -> l <> [] -> ist_sync p l = p ++ l ++ [10].
Proof. intros p l N D. unfold ist_sync. rewrite split_rest by auto. destruct l; [contradiction|]. cbn [drop_empty_last flat_map]. now rewrite app_nil_r. Qed.
Lemma sync_unique : forall p t out, indented p t out -> out = ist_sync p t.
Proof. intros p t out I. induction I as [|l t out N I IH|l N D]; [reflexivity|now rewrite sync_line, IH|now rewrite sync_rest]. Qed.
(* a text is empty, a line and a rest, or an unfinished line *)
Lemma first_line : forall t, (exists l u, t = l ++ [10] ++ u /\ ~ In 10 l) \/ ~ In 10 t.
Proof.
  induction t as [|c t IH]; [now right|]. destruct (N.eq_dec c 10) as [->|N]; [left; exists [], t; split; auto|].
  destruct IH as [(l & u & -> & M)|M]; [left; exists (c :: l), u; split; auto; intros [E|E]; auto|right; intros [E|E]; auto].
Qed.
Lemma sync_indented : forall p n t, (length t <= n)%nat -> indented p t (ist_sync p t).
Proof.
  intros p. induction n as [|n IH]; intros t L; [destruct t; [constructor|cbn in L; lia]|].
  destruct (first_line t) as [(l & u & -> & N)|N].
  - rewrite sync_line by auto. constructor; auto. apply IH. rewrite !app_length in L. cbn in L. lia.
  - destruct t as [|c t]; [constructor|]. rewrite sync_rest by (auto; discriminate). constructor; auto. discriminate.
Qed.
Lemma indented_iff : forall p t out, indented p t out <-> out = ist_sync p t.
Proof. intros p t out. split; [apply sync_unique|intros ->; now apply (sync_indented p (length t))]. Qed.
Lemma run_segments : forall p ops acc, ist_run p acc ops = flat_map (ist_sync p) (segments acc ops).
Proof.
  induction ops as [|[t|] ops IH]; intro acc; cbn [ist_run ist_step segments flat_map app]; [now rewrite app_nil_r|apply IH|now rewrite IH].
Qed.
Lemma sync_whole : forall p n t u, (length t <= n)%nat -> whole t -> ist_sync p (t ++ u) = ist_sync p t ++ ist_sync p u.
Proof.
  intros p. induction n as [|n IH]; intros t u L W; [destruct t; [reflexivity|cbn in L; lia]|].
  destruct (first_line t) as [(l & v & -> & N)|N].
  - rewrite <- !app_assoc. rewrite !sync_line by auto. rewrite !app_length in L. cbn in L. rewrite IH; [now rewrite <- !app_assoc|lia|].
    destruct W as [E|(w & E)]; [destruct l; discriminate|]. destruct v as [|c v]; [now left|]. right.
    destruct (exists_last (l := c :: v)) as (v' & x & F); [discriminate|]. rewrite F in E. exists v'. rewrite F. f_equal. rewrite !app_assoc in E. now apply app_inj_tail in E as (_ & ->).
  - destruct W as [->|(w & ->)]; [reflexivity|]. destruct N. apply in_or_app. right. now left.
Qed.
Lemma whole_app : forall a b, whole a -> whole (a ++ b) -> whole b.
Proof.
  intros a b A [E|(u & E)]; [left; now apply app_eq_nil in E|]. destruct b as [|c b]; [now left|]. right. destruct (exists_last (l := c :: b)) as (b' & x & F); [discriminate|].
  rewrite F in *. exists b'. rewrite app_assoc in E. now apply app_inj_tail in E as (_ & ->).
Qed.
Lemma run_whole : forall p ops acc, (forall h1 h2, ops = h1 ++ Flush :: h2 -> whole (acc ++ written h1)) -> ist_run p acc ops = ist_sync p (acc ++ written ops).
Proof.
  intros p. induction ops as [|[t|] ops IH]; intros acc H; cbn [ist_run ist_step written flat_map app].
  - now rewrite app_nil_r.
  - rewrite IH; [now rewrite <- app_assoc|]. intros h1 h2 E. rewrite <- app_assoc. apply (H (Write t :: h1) h2). now rewrite E.
  - assert (W : whole acc) by (rewrite <- (app_nil_r acc); apply (H [] ops); reflexivity). rewrite IH.
    + fold (written ops). symmetry. now apply (sync_whole p (length acc)).
    + intros h1 h2 E. cbn [app]. apply (whole_app acc); auto. apply (H (Flush :: h1) h2). now rewrite E.
Qed.
(* nesting *)
Lemma sync_is_whole : forall p n t, (length t <= n)%nat -> whole (ist_sync p t).
Proof.
  intros p n t _. assert (I : indented p t (ist_sync p t)) by now apply indented_iff. induction I as [|l t out N I IH|l N D]; [now left| |].
  - right. destruct IH as [->|(u & ->)]; [exists (p ++ l); now rewrite <- app_assoc|exists (p ++ l ++ [10] ++ u); now rewrite <- !app_assoc].
  - right. exists (p ++ l). now rewrite <- app_assoc.
Qed.
Lemma sync_nested : forall p q t, ~ In 10 q -> ist_sync p (ist_sync q t) = ist_sync (p ++ q) t.
Proof.
  intros p q t N. assert (I : indented q t (ist_sync q t)) by now apply indented_iff. induction I as [|l t out M I IH|l M D]; [reflexivity| |].
  - rewrite (sync_line (p ++ q)) by auto. rewrite <- IH, <- app_assoc, (app_assoc q l), sync_line; [now rewrite <- app_assoc|]. intro J. apply in_app_or in J as [J|J]; auto.
  - rewrite (sync_rest (p ++ q)) by auto. rewrite (app_assoc q l). rewrite <- (app_nil_r [10]) at 1. rewrite sync_line; [cbn; now rewrite <- !app_assoc|]. intro J. apply in_app_or in J as [J|J]; auto.
Qed.
Lemma concat_nested : forall p q l, ~ In 10 q -> ist_sync p (flat_map (ist_sync q) l) = flat_map (ist_sync (p ++ q)) l.
Proof.
  intros p q l N. induction l as [|t l IH]; [reflexivity|]. cbn [flat_map]. rewrite (sync_whole p (length (ist_sync q t))), sync_nested, IH; auto. now apply (sync_is_whole q (length t)).
Qed.
(* reading back *)
Lemma line_inj : forall (l m a b : text), ~ In 10 l -> ~ In 10 m -> l ++ [10] ++ a = m ++ [10] ++ b -> l = m /\ a = b.
Proof.
  induction l as [|c l IH]; intros [|d m] a b N M E; cbn [app] in E.
  - injection E as ->. auto.
  - injection E as <- _. destruct M. now left.
  - injection E as -> _. destruct N. now left.
  - injection E as -> E. destruct (IH m a b) as (-> & ->); auto; intro I; [apply N|apply M]; now right.
Qed.
Lemma whole_tail : forall l t, ~ In 10 l -> whole (l ++ [10] ++ t) -> whole t.
Proof. intros l t N W. rewrite app_assoc in W. eapply whole_app; [|exact W]. right. eauto. Qed.
Lemma indented_inj : forall p t o, indented p t o -> whole t -> forall u, indented p u o -> whole u -> t = u.
Proof.
  intros p t o I. induction I as [|l t out N I IH|l N D]; intros W u J V.
  - remember [] as e eqn:E. destruct J as [|m t' o' M J|m M D]; auto; exfalso; apply app_eq_nil in E as (_ & E); destruct m; discriminate.
  - remember (p ++ l ++ [10] ++ out) as e eqn:E. destruct J as [|m t' o' M J|m M D].
    + exfalso. symmetry in E. apply app_eq_nil in E as (_ & E). destruct l; discriminate.
    + apply app_inv_head in E. apply line_inj in E as (-> & ->); auto. rewrite (IH (whole_tail _ _ N W) t'); auto. now apply (whole_tail l).
    + exfalso. destruct V as [->|(w & ->)]; [contradiction|]. apply M. apply in_or_app. right. now left.
  - exfalso. destruct W as [->|(w & ->)]; [contradiction|]. apply N. apply in_or_app. right. now left.
Qed.
