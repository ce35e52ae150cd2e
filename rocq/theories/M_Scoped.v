(* Model of detail/cancel-handle.{hpp,cpp}: ScopedCancelHandle objects and the operations they cancel. *)
From Verif Require Import Base.
Open Scope list_scope.
Open Scope N_scope.

(* cancel-handle.hpp:135 m_hdl of each ScopedCancelHandle object that exists; the number is the operation that m_cancel (cancel-handle.hpp:54) cancels, None stands for a null m_cancel *)
Definition mem := list (N * option N).
(* cancel-handle.hpp:135 the member m_hdl of an object; objects are kept in a list, each once *)
Definition mget (m : mem) (h : N) : option (option N) := option_map snd (find (fun x => fst x =? h) m).
Definition mdel (m : mem) (h : N) : mem := filter (fun x => negb (fst x =? h)) m.
Definition mput (m : mem) (h : N) (v : option N) : mem := (h, v) :: mdel m h.
Definition opt1 (o : option N) : list N := match o with Some x => [x] | None => [] end.
(* cancel-handle.hpp:70-127 what a program does with such objects; SMake makes one from a new handle of an operation, of which no copy is kept *)
Inductive sop := SMake (h op : N) | SEmpty (h : N) | SMoveNew (h g : N) | SMoveTo (h g : N) | SCancel (h : N) | SRelease (h : N) | SDestroy (h : N).
(* objects, calls of cancel functions so far, operations given back by release() so far *)
Record sst := mkSs { ss_mem : mem; ss_called : list N; ss_released : list N }.
(* cancel-handle.cpp:26-33 CancelHandle::cancel on m_hdl of h: the function is called if it is not null, and becomes null *)
Definition hdl_cancel (h : N) (s : sst) : sst :=
  match mget (ss_mem s) h with Some x => mkSs (mput (ss_mem s) h None) (ss_called s ++ opt1 x) (ss_released s) | None => s end.
(* cancel-handle.hpp:123-127 release: the handle returned, and the object left with an empty one *)
Definition hdl_release (h : N) (s : sst) : option N * sst :=
  match mget (ss_mem s) h with Some x => (x, mkSs (mput (ss_mem s) h None) (ss_called s) (ss_released s)) | None => (None, s) end.
(* cancel-handle.hpp:75,86,101 assignment to or construction of m_hdl *)
Definition hdl_set (h : N) (v : option N) (s : sst) : sst := mkSs (mput (ss_mem s) h v) (ss_called s) (ss_released s).
Definition ss_step (s : sst) (o : sop) : sst :=
  match o with
  (* cancel-handle.hpp:74-77 *)
  | SMake h op => hdl_set h (Some op) s
  (* cancel-handle.hpp:70 *)
  | SEmpty h => hdl_set h None s
  (* cancel-handle.hpp:85-88 *)
  | SMoveNew h g => let (v, s1) := hdl_release g s in hdl_set h v s1
  (* cancel-handle.hpp:97-103 *)
  | SMoveTo h g => let (v, s1) := hdl_release g (hdl_cancel h s) in hdl_set h v s1
  (* cancel-handle.hpp:114-118: the temporary handle is cancelled *)
  | SCancel h => let (v, s1) := hdl_release h s in mkSs (ss_mem s1) (ss_called s1 ++ opt1 v) (ss_released s1)
  | SRelease h => let (v, s1) := hdl_release h s in mkSs (ss_mem s1) (ss_called s1) (ss_released s1 ++ opt1 v)
  (* cancel-handle.hpp:107-110 *)
  | SDestroy h => let s1 := hdl_cancel h s in mkSs (mdel (ss_mem s1) h) (ss_called s1) (ss_released s1)
  end.
(* cancel-handle.hpp:70-127 a history, latest first *)
Fixpoint ss_run (hist : list sop) : sst := match hist with [] => mkSs [] [] [] | o :: past => ss_step (ss_run past) o end.
