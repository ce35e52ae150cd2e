(* Model of util/logging.cpp and util/logger.cpp: which level a logger has. *)
From Verif Require Import Base M_Str.
Open Scope list_scope.

(* util/logger.hpp:45-54 *)
Inductive level := FATAL | NONE | ERROR | WARN | INFO | DEBUG | TRACE | ALL.
Definition level_num (l : level) : Z :=
  match l with FATAL => -1 | NONE => 0 | ERROR => 1 | WARN => 2 | INFO => 3 | DEBUG => 4 | TRACE => 5 | ALL => 255 end.
(* util/logger.hpp:98-102 isLevelEnabled: whether a message of a severity is output by a logger of a level *)
Definition isLevelEnabled (current severity : level) : bool := (level_num severity <=? level_num current)%Z.
(* util/logger.cpp:27-50 operator<< *)
Definition level_text (l : level) : bytes :=
  match l with
  | FATAL => str "FATAL" | NONE => str "NONE" | ERROR => str "ERROR" | WARN => str "WARN"
  | INFO => str "INFO" | DEBUG => str "DEBUG" | TRACE => str "TRACE" | ALL => str "ALL"
  end.
(* util/logger.cpp:52-73 parseLogLevel *)
Definition parseLogLevel (s : bytes) : res level :=
  if bytes_eqb s (str "FATAL") then Ok FATAL
  else if bytes_eqb s (str "NONE") then Ok NONE
  else if bytes_eqb s (str "ERROR") then Ok ERROR
  else if bytes_eqb s (str "WARN") then Ok WARN
  else if bytes_eqb s (str "INFO") then Ok INFO
  else if bytes_eqb s (str "DEBUG") then Ok DEBUG
  else if bytes_eqb s (str "TRACE") then Ok TRACE
  else if bytes_eqb s (str "ALL") then Ok ALL
  else Err EInvalidArg.
Definition cDot : byte := x2e.
Definition cStar : byte := x2a.
Definition cColon : byte := x3a.
Definition cEquals : byte := x3d.
(* util/logger.cpp:75-85 isValidLoggerName *)
Definition okChars : bytes := str "abcdefghijklmnopqrstuvwxyzABCDEFGHIJKLMNOPQRSTUVWXYZ0123456789~#%_<>.-".
Fixpoint has_dotdot (s : bytes) : bool :=
  match s with a :: ((b :: _) as s') => (beqb a cDot && beqb b cDot) || has_dotdot s' | _ => false end.
Definition isValidLoggerName (s : bytes) : bool :=
  match s with
  | [] => false
  | a :: _ => negb (beqb a cDot) && negb (beqb (last s x00) cDot) && negb (has_dotdot s) && forallb (fun c => existsb (beqb c) okChars) s
  end.

(* util/logging.hpp:187-188 m_enabledLevel, m_loggers.  A logger is its name and, unless only the name was registered, its level (logger.hpp:112).
   Loggers live until the program ends (their destructor does not take them out of m_loggers). *)
Record logging := mkLg { lg_enabled : list (bytes * level); lg_loggers : list (bytes * option level) }.
Definition lg_init : logging := mkLg [] [].
Fixpoint lv_get (k : bytes) (m : list (bytes * level)) : option level :=
  match m with [] => None | (k', l) :: m' => if bytes_eqb k k' then Some l else lv_get k m' end.
Definition lv_set (k : bytes) (l : level) (m : list (bytes * level)) : list (bytes * level) :=
  (k, l) :: filter (fun p => negb (bytes_eqb k (fst p))) m.
(* std::string::find_last_of *)
Fixpoint find_last (c : byte) (s : bytes) : option nat :=
  match s with
  | [] => None
  | x :: s' => match find_last c s' with Some i => Some (S i) | None => if beqb x c then Some O else None end
  end.
(* util/logging.cpp:145-161, one turn of the loop *)
Definition fl_next (mn : bytes) : bytes :=
  match find_last cDot mn with
  | None => []
  | Some pos =>
      if Nat.ltb pos (length mn - 1) then firstn (S pos) mn
      else
        let m := firstn (length mn - 1) mn in
        match find_last cDot m with Some p => firstn (S p) m | None => [] end
  end.
(* util/logging.cpp:138-166 findLevel; the fuel is never used up *)
Fixpoint findLevel_ (fuel : nat) (m : list (bytes * level)) (mn : bytes) : level :=
  match fuel with
  | O => NONE
  | S n =>
      match lv_get mn m with
      | Some l => l
      | None => match mn with [] => NONE | _ => findLevel_ n m (fl_next mn) end
      end
  end.
Definition findLevel (m : list (bytes * level)) (mn : bytes) : level := findLevel_ (S (length mn)) m mn.
(* i->first.compare(0, p.size(), p) == 0 *)
Fixpoint starts (p s : bytes) : bool :=
  match p, s with
  | [], _ => true
  | a :: p', b :: s' => beqb a b && starts p' s'
  | _, [] => false
  end.
(* util/logging.cpp:184-220 setLevelImpl(prefix, level) *)
Definition lg_set (prefix : bytes) (l : level) (g : logging) : logging :=
  if match prefix with [] => true | _ => beqb (last prefix x00) cStar end then
    let p := firstn (length prefix - 1) prefix in
    mkLg (lv_set p l (filter (fun e => negb (starts p (fst e))) (lg_enabled g)))
         (map (fun e => match e with (n, Some o) => (n, Some (if starts p n then l else o)) | _ => e end) (lg_loggers g))
  else
    mkLg (lv_set prefix l (lg_enabled g))
         (map (fun e => match e with (n, Some o) => (n, Some (if bytes_eqb n prefix then l else o)) | _ => e end) (lg_loggers g)).
(* util/logging.cpp:222-237 setLevelImpl(config).  std::getline gives what is before the next ':', or the rest if it is not empty. *)
Fixpoint lg_config_ (fuel : nat) (s : bytes) (g : logging) : logging * option err :=
  match fuel with
  | O => (g, Some EFuel)
  | S n =>
      match s with
      | [] => (g, None)
      | _ =>
          let (item, rest) := match split_at cColon s with Some (a, b) => (a, b) | None => (s, []) end in
          match split_at cEquals item with
          | None => (g, Some EInvalidArg)
          | Some (m, v) => match parseLogLevel v with Err x => (g, Some x) | Ok l => lg_config_ n rest (lg_set m l g) end
          end
      end
  end.
Definition lg_config (s : bytes) (g : logging) : logging * option err := lg_config_ (S (length s)) s g.
(* util/logger.cpp:87-96 Logger(name), util/logging.cpp:110-119 addLoggerImpl *)
Definition lg_add (n : bytes) (g : logging) : logging * option err :=
  if isValidLoggerName n then (mkLg (lg_enabled g) (lg_loggers g ++ [(n, Some (findLevel (lg_enabled g) n))]), None)
  else (g, Some EInvalidArg).
(* util/logger.cpp:98-105 registerModuleName, util/logging.cpp:121-126 *)
Definition lg_register (n : bytes) (g : logging) : logging * option err :=
  if isValidLoggerName n then (mkLg (lg_enabled g) (lg_loggers g ++ [(n, None)]), None) else (g, Some EInvalidArg).
(* util/logging.cpp:128-136 getLoggerNames, as a list *)
Definition lg_names (g : logging) : list bytes := map fst (lg_loggers g).

Inductive lg_op := LSet (p : bytes) (l : level) | LConfig (s : bytes) | LAdd (n : bytes) | LRegister (n : bytes).
(* each operation holds the mutex (util/logging.cpp:113, 124, 187): operations of several threads happen one after the other,
   a config string as one operation for each of its settings *)
Definition lg_step (o : lg_op) (g : logging) : logging * option err :=
  match o with LSet p l => (lg_set p l g, None) | LConfig s => lg_config s g | LAdd n => lg_add n g | LRegister n => lg_register n g end.
Fixpoint lg_run (os : list lg_op) (g : logging) : logging * list (option err) :=
  match os with
  | [] => (g, [])
  | o :: os' => let (g1, r) := lg_step o g in let (g2, l) := lg_run os' g1 in (g2, r :: l)
  end.
