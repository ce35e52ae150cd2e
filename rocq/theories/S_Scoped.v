(* Vocabulary of the statements about scoped handles.  Histories have their latest step first. *)
From Verif Require Import Base M_Scoped.
Open Scope list_scope.
Open Scope N_scope.

(* the objects that exist *)
Fixpoint alive (hist : list sop) (h : N) : Prop :=
  match hist with
  | [] => False
  | (SMake g _ | SEmpty g | SMoveNew g _) :: past => h = g \/ alive past h
  | SDestroy g :: past => h <> g /\ alive past h
  | _ :: past => alive past h
  end.
(* objects are made where there is none, and used where there is one *)
Fixpoint valid (hist : list sop) : Prop :=
  match hist with
  | [] => True
  | o :: past => valid past /\
    match o with
    | SMake h _ | SEmpty h => ~ alive past h
    | SMoveNew h g => ~ alive past h /\ alive past g
    | SMoveTo h g => alive past h /\ alive past g
    | SCancel h | SRelease h | SDestroy h => alive past h
    end
  end.
(* the step has to do with the object *)
Definition touches (o : sop) (h : N) : Prop :=
  match o with SMake g _ | SEmpty g | SCancel g | SRelease g | SDestroy g => h = g | SMoveNew a b | SMoveTo a b => h = a \/ h = b end.
(* the object is responsible for the operation *)
Inductive holds : list sop -> N -> N -> Prop :=
| h_make : forall past h op, holds (SMake h op :: past) h op
| h_new : forall past h g op, holds past g op -> holds (SMoveNew h g :: past) h op
| h_moved : forall past h g op, h <> g -> holds past g op -> holds (SMoveTo h g :: past) h op
| h_kept : forall o past h op, ~ touches o h -> holds past h op -> holds (o :: past) h op.
(* the operations for which objects were made *)
Fixpoint made (hist : list sop) : list N := match hist with [] => [] | SMake _ op :: past => op :: made past | _ :: past => made past end.
(* the step ends the responsibility of the object by cancelling *)
Definition ends (o : sop) (h : N) : Prop := match o with SCancel g | SDestroy g | SMoveTo g _ => h = g | _ => False end.
(* what the step released *)
Definition given_back (hist : list sop) (op : N) : Prop := exists h1 h past, hist = h1 ++ SRelease h :: past /\ holds past h op.
