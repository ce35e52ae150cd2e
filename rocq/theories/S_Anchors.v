(* Vocabulary for C67 *)
From Verif Require Import Base M_Name S_Name M_Ims S_Ims M_CertCache S_CertCache M_Anchors.
From Coq Require Import ZArith.
Open Scope Z_scope.

(* a call that looks at the file system, at a reading of the steady clock *)
Definition reads (o : taop) (now : Z) (d : disk) : Prop :=
  match o with TADyn t e _ _ _ | TAFindN t e _ _ | TAFindI t e _ _ => now = t /\ d = e | _ => False end.
Definition on_disk (d : disk) (path : N) (n : list key) : Prop := exists c, In c (d path) /\ ct_name c = n.
(* the last calls, from the latest back to the last clear() *)
Fixpoint since_clear (h : list taop) : list taop := match h with [] => [] | TAClear :: _ => [] | o :: h' => o :: since_clear h' end.
(* h: latest call first.  A certificate named n was inserted in group i and n was not removed from that group since *)
Definition static_in (h : list taop) (i : N) (n : list key) : Prop :=
  exists h1 c h2, since_clear h = h1 ++ TAIns i c :: h2 /\ ct_name c = n /\ ~ In (TARem i n) h1.
(* at the latest reload of dynamic group i, at time t with t + period > now, there was a certificate named n in its path *)
Definition dynamic_in (h : list taop) (now : Z) (i : N) (n : list key) : Prop :=
  exists t0 d0 path period o t d, In (TADyn t0 d0 i path period) (since_clear h) /\ In o (since_clear h) /\ reads o t d /\ on_disk d path n /\ now < t + period.
(* where a certificate may come from *)
Definition source (h : list taop) (c : cert) : Prop :=
  (exists i, In (TAIns i c) (since_clear h)) \/
  (exists t0 d0 i path period o t d, In (TADyn t0 d0 i path period) (since_clear h) /\ In o (since_clear h) /\ reads o t d /\ In c (d path)).
(* an operation that can bring in, or take out, a certificate named n *)
Definition touches (n : list key) (o : taop) : Prop :=
  match o with
  | TAIns _ c => ct_name c = n
  | TARem _ m => m = n
  | TAClear => True
  | _ => exists t d path, reads o t d /\ on_disk d path n
  end.
(* the steady clock does not read a time before its epoch *)
Definition clocked (o : taop) : Prop := forall t d, reads o t d -> 0 <= t.
(* and no reading is so late that adding a refresh period of at most p overflows 64-bit nanoseconds *)
Definition fits (p : Z) (o : taop) : Prop :=
  (forall t d, reads o t d -> 0 <= t /\ t + p < 2 ^ 63) /\ match o with TADyn _ _ _ _ period => period <= p | _ => True end.
(* a lookup *)
Definition is_find (o : taop) : Prop := match o with TAFindN _ _ _ _ | TAFindI _ _ _ _ => True | _ => False end.
