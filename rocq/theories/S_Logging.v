(* Vocabulary of the statements about log levels. *)
From Verif Require Import Base M_Logging.
Open Scope list_scope.

(* a pattern is for all loggers (empty or "*"), for those whose name begins with what is before a final "*", or for the one of that name *)
Definition covers (p n : bytes) : Prop :=
  p = [] \/ (exists q r, p = q ++ [cStar] /\ n = q ++ r) \/ (p = n /\ forall q, p <> q ++ [cStar]).
(* the documented patterns: for all, "a.b.*", or a name *)
Definition documented (p : bytes) : Prop :=
  p = [] \/ p = [cStar] \/ (exists q, p = q ++ [cDot; cStar]) \/ (forall q, p <> q ++ [cStar] /\ p <> q ++ [cDot]).
(* the level of a logger is given by the last setting for it, and is NONE without one *)
Definition decides (ss : list (bytes * level)) (n : bytes) (l : level) : Prop :=
  (exists s1 p s2, ss = s1 ++ (p, l) :: s2 /\ covers p n /\ Forall (fun s => ~ covers (fst s) n) s2) \/
  (l = NONE /\ Forall (fun s => ~ covers (fst s) n) ss).
(* the settings in a config string, up to the first item that is not "name=LEVEL" *)
Definition item (t p : bytes) (l : level) : Prop := t = p ++ cEquals :: level_text l /\ ~ In cEquals p.
Inductive config : bytes -> list (bytes * level) -> option err -> Prop :=
| cf_end : config [] [] None
| cf_last : forall t p l, t <> [] -> ~ In cColon t -> item t p l -> config t [(p, l)] None
| cf_item : forall t rest p l ss e, ~ In cColon t -> item t p l -> config rest ss e -> config (t ++ cColon :: rest) ((p, l) :: ss) e
| cf_bad_last : forall t, t <> [] -> ~ In cColon t -> (forall p l, ~ item t p l) -> config t [] (Some EInvalidArg)
| cf_bad : forall t rest, ~ In cColon t -> (forall p l, ~ item t p l) -> config (t ++ cColon :: rest) [] (Some EInvalidArg).
(* names of loggers *)
Definition logger_name (n : bytes) : Prop :=
  n <> [] /\ (forall s, n <> cDot :: s) /\ (forall s, n <> s ++ [cDot]) /\ (forall a b, n <> a ++ cDot :: cDot :: b) /\
  forall c, In c n -> In c (str "abcdefghijklmnopqrstuvwxyzABCDEFGHIJKLMNOPQRSTUVWXYZ0123456789~#%_<>.-").
(* the settings of a history, and what each operation throws *)
Inductive said : list lg_op -> list (bytes * level) -> list (option err) -> Prop :=
| sd_nil : said [] [] []
| sd_set : forall p l os ss es, said os ss es -> said (LSet p l :: os) ((p, l) :: ss) (None :: es)
| sd_config : forall s ss1 e os ss es, config s ss1 e -> said os ss es -> said (LConfig s :: os) (ss1 ++ ss) (e :: es)
| sd_add : forall n e os ss es, (logger_name n <-> e = None) -> (e = None \/ e = Some EInvalidArg) -> said os ss es -> said (LAdd n :: os) ss (e :: es)
| sd_register : forall n e os ss es, (logger_name n <-> e = None) -> (e = None \/ e = Some EInvalidArg) -> said os ss es -> said (LRegister n :: os) ss (e :: es).
