(* C96: levels of loggers. *)
From Verif Require Import Base BaseLemmas M_Str M_Logging S_Logging P_Logging.
Open Scope list_scope.

(* Any history of settings, config strings, loggers and registered names: each operation throws what it should, and if all settings have documented patterns,
   the level of every logger is that of the last setting for it, whether the logger was made before or after the setting.
   Missing for the full claim: other patterns that end with "*"; C96_pattern_refuted. *)
Theorem C96_level_partial : forall os g es, lg_run os lg_init = (g, es) -> exists ss, said os ss es /\
  (Forall (fun s => documented (fst s)) ss -> forall n lv, In (n, Some lv) (lg_loggers g) -> decides ss n lv).
Proof.
  intros os g es H. destruct (run_linv os [] lg_init g es) as (ss & S & _ & D); auto; [split; [apply tinv_nil|intros _ n lv []]|]. exists ss. auto.
Qed.
Print Assumptions C96_level_partial.
(* the settings of a history and the level they decide are unique *)
Theorem C96_unique : (forall os ss es ss' es', said os ss es -> said os ss' es' -> ss = ss') /\ (forall ss n l l', decides ss n l -> decides ss n l' -> l = l') /\
  (forall s ss e ss' e', config s ss e -> config s ss' e' -> ss = ss' /\ e = e').
Proof.
  split; [|split].
  - intros os ss es ss' es' A B. eapply said_fun; eauto.
  - exact decides_fun.
  - intros s ss e ss' e' A B. eapply config_fun; eauto.
Qed.
Print Assumptions C96_unique.
(* it does not matter when a logger is made *)
Theorem C96_when_partial : forall os os' g g' es es' ss n lv lv', lg_run os lg_init = (g, es) -> lg_run os' lg_init = (g', es') -> said os ss es -> said os' ss es' ->
  Forall (fun s => documented (fst s)) ss -> In (n, Some lv) (lg_loggers g) -> In (n, Some lv') (lg_loggers g') -> lv = lv'.
Proof.
  intros os os' g g' es es' ss n lv lv' R R' S S' D I I'. destruct (C96_level_partial _ _ _ R) as (s1 & A & B). destruct (C96_level_partial _ _ _ R') as (s2 & A' & B').
  rewrite (said_fun _ _ _ A _ _ S) in B. rewrite (said_fun _ _ _ A' _ _ S') in B'. eapply decides_fun; eauto.
Qed.
Print Assumptions C96_when_partial.
(* a setting with any pattern gives its level to the existing loggers it is for, and to no other *)
Theorem C96_set : forall p l g n lv, In (n, Some lv) (lg_loggers (lg_set p l g)) -> exists o, In (n, Some o) (lg_loggers g) /\ ((covers p n /\ lv = l) \/ (~ covers p n /\ lv = o)).
Proof.
  intros p l g n lv I. unfold lg_set in I. fold (wild p) in I. destruct (wild p) eqn:W; cbn [lg_loggers] in I; apply in_map_iff in I as ((n0, [o|]) & E & I0); try discriminate; injection E as -> <-; exists o; (split; [exact I0|]).
  - assert (Kp : firstn (length p - 1) p = pkey p) by (unfold pkey; now rewrite W). rewrite Kp, covers_wild by auto. destruct (starts (pkey p) n); [left|right]; auto.
  - rewrite covers_exact by auto. destruct (bytes_eqb n p) eqn:B; [apply bytes_eqb_eq in B; left; auto|apply bytes_eqb_neq in B; right; auto].
Qed.
Print Assumptions C96_set.
(* the names known are those of the loggers made and the names registered that are logger names; every such logger has a level *)
Theorem C96_names : forall os n, (In n (lg_names (fst (lg_run os lg_init))) <-> logger_name n /\ (In (LAdd n) os \/ In (LRegister n) os)) /\
  ((exists lv, In (n, Some lv) (lg_loggers (fst (lg_run os lg_init)))) <-> logger_name n /\ In (LAdd n) os).
Proof.
  intros os n. pose proof (run_made os lg_init) as K. cbn [kinds lg_init lg_loggers map app] in K. set (g := fst (lg_run os lg_init)) in *.
  assert (B : forall b, In (n, b) (kinds g) <-> logger_name n /\ In (if b then LAdd n else LRegister n) os) by (intro b; rewrite K; apply made_iff).
  assert (S : (exists lv, In (n, Some lv) (lg_loggers g)) <-> In (n, true) (kinds g)).
  { unfold kinds. rewrite in_map_iff. split; [intros (lv & I); exists (n, Some lv); auto|intros ((n', [lv|]) & E & I); [injection E as ->; eauto|discriminate]]. }
  assert (N : In (n, None) (lg_loggers g) <-> In (n, false) (kinds g)).
  { unfold kinds. rewrite in_map_iff. split; [intro I; exists (n, None); auto|intros ((n', [lv|]) & E & I); [discriminate|injection E as ->; auto]]. }
  split; [|rewrite S; apply (B true)].
  unfold lg_names. rewrite in_map_iff. split.
  - intros ((n', [lv|]) & E & I); cbn in E; subst n'.
    + destruct (proj1 (B true)) as (V & J); [apply S; eauto|auto].
    + destruct (proj1 (B false)) as (V & J); [now apply N|auto].
  - intros (V & [J|J]).
    + destruct (proj2 S) as (lv & I); [now apply B|]. exists (n, Some lv). auto.
    + exists (n, None). split; auto. apply N. now apply B.
Qed.
Print Assumptions C96_names.
(* the texts of the levels, and which messages are output *)
Theorem C96_texts : (forall s l, parseLogLevel s = Ok l <-> s = level_text l) /\ (forall s e, parseLogLevel s = Err e -> e = EInvalidArg) /\
  (forall c, isLevelEnabled c FATAL = true) /\ (forall s, isLevelEnabled ALL s = true) /\
  (forall c s, In s [ERROR; WARN; INFO; DEBUG; TRACE] -> In c [ERROR; WARN; INFO; DEBUG; TRACE] -> (isLevelEnabled c s = true <-> exists a b, [ERROR; WARN; INFO; DEBUG; TRACE] = a ++ c :: b /\ In s (a ++ [c]))) /\
  (forall s, In s [ERROR; WARN; INFO; DEBUG; TRACE] -> isLevelEnabled NONE s = false).
Proof.
  split; [exact level_of_text|]. split; [exact level_err|]. split; [intros []; reflexivity|]. split; [intros []; reflexivity|]. split.
  - intros c s Is Ic. split.
    + intro H. destruct c; cbn in Ic; try (exfalso; intuition congruence); clear Ic.
      * exists [], [WARN; INFO; DEBUG; TRACE]. split; [reflexivity|]. destruct s; try discriminate; cbn in *; intuition congruence.
      * exists [ERROR], [INFO; DEBUG; TRACE]. split; [reflexivity|]. destruct s; try discriminate; cbn in *; intuition congruence.
      * exists [ERROR; WARN], [DEBUG; TRACE]. split; [reflexivity|]. destruct s; try discriminate; cbn in *; intuition congruence.
      * exists [ERROR; WARN; INFO], [TRACE]. split; [reflexivity|]. destruct s; try discriminate; cbn in *; intuition congruence.
      * exists [ERROR; WARN; INFO; DEBUG], []. split; [reflexivity|]. destruct s; try discriminate; cbn in *; intuition congruence.
    + intros (a & b & E & I). do 5 (destruct a as [|x a]; cbn in E; [injection E as <- _; cbn in I; destruct s; (reflexivity || (exfalso; intuition congruence))|injection E as <- E]).
      destruct a; discriminate E.
  - intros s I. destruct s; try reflexivity; cbn in I; exfalso; intuition congruence.
Qed.
Print Assumptions C96_texts.
(* A pattern that does not end at a dot is for the loggers that exist but not for those made later. *)
Theorem C96_pattern_refuted : exists p n, covers p n /\
  lg_loggers (fst (lg_run [LAdd n; LSet p DEBUG] lg_init)) = [(n, Some DEBUG)] /\ lg_loggers (fst (lg_run [LSet p DEBUG; LAdd n] lg_init)) = [(n, Some NONE)].
Proof.
  exists (str "ndn.Fa*"), (str "ndn.Face"). split; [|split; vm_compute; reflexivity]. right. left. exists (str "ndn.Fa"), (str "ce"). split; reflexivity.
Qed.
Print Assumptions C96_pattern_refuted.
Example C96_ex :
  let '(g, es) := lg_run [LAdd (str "ndn.a.b"); LConfig (str "*=INFO:ndn.a.*=DEBUG:ndn.a.c=TRACE:bad"); LAdd (str "ndn.a.c"); LAdd (str "ndn.a.d"); LAdd (str "ndn..x"); LSet (str "ndn.*") WARN;
                          LAdd (str "ndn.a.c"); LRegister (str "Face"); LAdd (str "Face")] lg_init in
  es = [None; Some EInvalidArg; None; None; Some EInvalidArg; None; None; None; None] /\
  lg_loggers g = [(str "ndn.a.b", Some WARN); (str "ndn.a.c", Some WARN); (str "ndn.a.d", Some WARN); (str "ndn.a.c", Some WARN); (str "Face", None); (str "Face", Some INFO)].
Proof. vm_compute. split; reflexivity. Qed.
Example C96_ex2 : lg_loggers (fst (lg_run [LConfig (str "*=INFO:ndn.a.*=DEBUG:ndn.a.c=TRACE"); LAdd (str "ndn.a.c"); LAdd (str "ndn.a.d.e"); LAdd (str "ndn.x")] lg_init)) =
  [(str "ndn.a.c", Some TRACE); (str "ndn.a.d.e", Some DEBUG); (str "ndn.x", Some INFO)] /\ documented (str "ndn.a.*") /\ documented (str "ndn.a.c") /\ documented (str "*").
Proof.
  split; [vm_compute; reflexivity|]. split; [right; right; left; exists (str "ndn.a"); reflexivity|]. split; [|right; left; reflexivity].
  right. right. right. intro q. split; intro E; apply (f_equal (fun l => last l x00)) in E; rewrite last_last in E; discriminate E.
Qed.
