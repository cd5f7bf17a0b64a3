(** Model of [Singleton<C>] (incremental_calibration/include/aslam/calibration/base/Singleton.tpp).
    The header that declares the class template is not in the repository: copy operations and access control are not modelled.
    Objects are numbered in the order in which their storage is allocated. *)
From stdpp Require Import prelude list.
From Verif Require Import Base.

(** ** One thread *)
(** The static member (line 16) and the objects of class C that exist. *)
Record sstate := SState { s_instance : option nat; s_live : list nat; s_next : nat }.
Definition s_start : sstate := SState None [] 0.

(** [new C()] or the definition of an object: Singleton(), lines 22-28, then the rest of C's constructor, which fails if
    [ok] is false: then the destructor of the base runs (30-33) and the storage is released. *)
Definition s_construct (ok : bool) (s : sstate) : sstate * result nat :=
  let this := s_next s in
  match s_instance s with
  | Some _ => (SState (s_instance s) (s_live s) (S this), Throw InvalidOperation)
  | None =>
      if ok then (SState (Some this) (s_live s ++ [this]) (S this), Ret this)
      else (SState None (s_live s) (S this), Throw External)
  end.
(** ~Singleton(), 30-33, at the end of the life of object [x]. *)
Definition s_destroy (x : nat) (s : sstate) : sstate :=
  SState None (filter (fun y => y <> x) (s_live s)) (s_next s).
(** getInstance, 39-44. *)
Definition s_getInstance (ok : bool) (s : sstate) : sstate * result nat :=
  match s_instance s with
  | Some x => (s, Ret x)
  | None =>
      match s_construct ok s with
      | (s', Ret _) => (s', match s_instance s' with Some x => Ret x | None => UB end)
      | (s', r) => (s', r)
      end
  end.
(** exists, 50-53. *)
Definition s_exists (s : sstate) : bool := match s_instance s with Some _ => true | None => false end.

Inductive scall := SConstruct (ok : bool) | SDestroy (x : nat) | SGet (ok : bool).
(** Destroying an object that does not exist is not something a program can do. *)
Definition s_step (s : sstate) (c : scall) : option (sstate * result nat) :=
  match c with
  | SConstruct ok => Some (s_construct ok s)
  | SDestroy x => if decide (x ∈ s_live s) then Some (s_destroy x s, Ret x) else None
  | SGet ok => Some (s_getInstance ok s)
  end.
Inductive s_reach : sstate -> Prop :=
| sr_start : s_reach s_start
| sr_step s c s' r : s_reach s -> s_step s c = Some (s', r) -> s_reach s'.

(** ** Several threads calling getInstance.  Each step reads or writes the static member once; any thread may be next.  (In C++
    such accesses are a data race; the steps are the most favourable reading.) *)
Inductive tstate :=
| TCheck                   (* before "if (!instance)", line 41 *)
| TNew                     (* before "if (instance)" of the constructor, line 24 *)
| TSet (this : nat)        (* before "instance = this", line 27; the object is [this] *)
| TReturn                  (* before "return *instance", line 43 *)
| TDone (r : result nat).
Record cstate := CState { c_instance : option nat; c_next : nat; c_created : list nat; c_threads : list tstate }.
Definition c_start (n : nat) : cstate := CState None 0 [] (replicate n TCheck).
Definition c_step (c : cstate) (i : nat) : cstate :=
  match c_threads c !! i with
  | Some TCheck =>
      CState (c_instance c) (c_next c) (c_created c) (<[i := match c_instance c with Some _ => TReturn | None => TNew end]> (c_threads c))
  | Some TNew =>
      match c_instance c with
      | Some _ => CState (c_instance c) (c_next c) (c_created c) (<[i := TDone (Throw InvalidOperation)]> (c_threads c))
      | None => CState (c_instance c) (S (c_next c)) (c_created c) (<[i := TSet (c_next c)]> (c_threads c))
      end
  | Some (TSet x) => CState (Some x) (c_next c) (c_created c ++ [x]) (<[i := TReturn]> (c_threads c))
  | Some TReturn =>
      CState (c_instance c) (c_next c) (c_created c)
        (<[i := TDone (match c_instance c with Some x => Ret x | None => UB end)]> (c_threads c))
  | _ => c
  end.
(** A schedule: which thread takes the next step. *)
Definition c_run (c : cstate) (schedule : list nat) : cstate := fold_left c_step schedule c.
