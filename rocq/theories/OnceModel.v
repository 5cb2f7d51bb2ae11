(** OnceModel.v -- algorithm_plugin_manager.cxx 318-362: instance() and
    load_plugins_once(), called by any number of threads.

    Threads interleave at every access to a shared variable or lock
    (sequential consistency: the unsynchronised reads of lines 325 and 347 are
    given no weaker meaning; that they race is stated in OnceProps).  A thread
    makes any number of calls, one after the other.  Registration loads the
    modules one by one and can be left by an exception, as can the constructor. *)
From Coq Require Import List Bool.
Import ListNotations.

(** Who called instance(): a client, or load_plugins_once line 355. *)
Inductive caller := Client | Once.
Inductive pc :=
| Out                                   (* in neither function *)
| OCheck                                (* 347: about to read [first] *)
| OLock                                 (* 352: about to take the lock *)
| OCheck2                               (* 353: about to read [first] again *)
| ORegister (k : nat)                   (* 355: k modules loaded by this call *)
| OWrite                                (* 356: about to write [first] *)
| OUnlock (b : bool)                    (* 357, 360: lock_guard destructor *)
| ORet (b : bool)                       (* about to return b *)
| OUnwind                               (* exception: lock_guard destructor *)
| ICheck (c : caller)                   (* 323: about to read s_instance *)
| ILock (c : caller)                    (* 328 *)
| ICheck2 (c : caller)                  (* 329 *)
| INew (c : caller)                     (* 332: about to construct *)
| IWrite (c : caller) (o : nat)         (* 332: about to write s_instance *)
| IUnlock (c : caller)                  (* 335, lock_guard destructor *)
| IUnwind (c : caller)                  (* exception in the constructor *)
| IRet (c : caller) (o : nat).          (* about to return *s_instance *)

(** What callers see. *)
Inductive event :=
| Returned (t : nat) (b : bool) (loaded : list nat)   (* load_plugins_once gave b; the modules loaded by completed registrations *)
| Instance (t : nat) (o : nat)                        (* instance() gave object o *)
| Raised (t : nat).                                   (* an exception left the call *)

Record state := mkS {
  first : bool;
  once_lock : option nat;
  inst : option nat;
  inst_lock : option nat;
  made : nat;                (* objects constructed so far *)
  done : list nat;           (* modules loaded by registrations that completed *)
  pcs : nat -> pc;
  log : list event }.        (* newest first *)
Definition set_pc (f : nat -> pc) (t : nat) (p : pc) : nat -> pc := fun u => if Nat.eqb u t then p else f u.
Definition goto (s : state) (t : nat) (p : pc) : state :=
  mkS (first s) (once_lock s) (inst s) (inst_lock s) (made s) (done s) (set_pc (pcs s) t p) (log s).
Definition init : state := mkS true None None None 0 [] (fun _ => Out) [].

(** One step of thread [t]; [M] is the number of modules in the search paths. *)
Inductive step (M : nat) (s : state) (t : nat) : state -> Prop :=
| s_call_once : pcs s t = Out -> step M s t (goto s t OCheck)
| s_call_inst : pcs s t = Out -> step M s t (goto s t (ICheck Client))
(* load_plugins_once 345-362 *)
| s_check_done : pcs s t = OCheck -> first s = false -> step M s t (goto s t (ORet false))
| s_check_first : pcs s t = OCheck -> first s = true -> step M s t (goto s t OLock)
| s_lock : pcs s t = OLock -> once_lock s = None ->
    step M s t (mkS (first s) (Some t) (inst s) (inst_lock s) (made s) (done s) (set_pc (pcs s) t OCheck2) (log s))
| s_check2_first : pcs s t = OCheck2 -> first s = true -> step M s t (goto s t (ICheck Once))
| s_check2_done : pcs s t = OCheck2 -> first s = false -> step M s t (goto s t (OUnlock false))
| s_load k : pcs s t = ORegister k -> k < M -> step M s t (goto s t (ORegister (S k)))
| s_load_throw k : pcs s t = ORegister k -> step M s t (goto s t OUnwind)
| s_loaded : pcs s t = ORegister M ->
    step M s t (mkS (first s) (once_lock s) (inst s) (inst_lock s) (made s) (done s ++ seq 0 M) (set_pc (pcs s) t OWrite) (log s))
| s_write : pcs s t = OWrite ->
    step M s t (mkS false (once_lock s) (inst s) (inst_lock s) (made s) (done s) (set_pc (pcs s) t (OUnlock true)) (log s))
| s_unlock b : pcs s t = OUnlock b ->
    step M s t (mkS (first s) None (inst s) (inst_lock s) (made s) (done s) (set_pc (pcs s) t (ORet b)) (log s))
| s_ret b : pcs s t = ORet b ->
    step M s t (mkS (first s) (once_lock s) (inst s) (inst_lock s) (made s) (done s) (set_pc (pcs s) t Out) (Returned t b (done s) :: log s))
| s_unwind : pcs s t = OUnwind ->
    step M s t (mkS (first s) None (inst s) (inst_lock s) (made s) (done s) (set_pc (pcs s) t Out) (Raised t :: log s))
(* instance 318-337 *)
| s_icheck_some c o : pcs s t = ICheck c -> inst s = Some o -> step M s t (goto s t (IRet c o))
| s_icheck_null c : pcs s t = ICheck c -> inst s = None -> step M s t (goto s t (ILock c))
| s_ilock c : pcs s t = ILock c -> inst_lock s = None ->
    step M s t (mkS (first s) (once_lock s) (inst s) (Some t) (made s) (done s) (set_pc (pcs s) t (ICheck2 c)) (log s))
| s_icheck2_null c : pcs s t = ICheck2 c -> inst s = None -> step M s t (goto s t (INew c))
| s_icheck2_some c o : pcs s t = ICheck2 c -> inst s = Some o -> step M s t (goto s t (IUnlock c))
| s_new c : pcs s t = INew c ->
    step M s t (mkS (first s) (once_lock s) (inst s) (inst_lock s) (S (made s)) (done s) (set_pc (pcs s) t (IWrite c (made s))) (log s))
| s_new_throw c : pcs s t = INew c -> step M s t (goto s t (IUnwind c))
| s_iwrite c o : pcs s t = IWrite c o ->
    step M s t (mkS (first s) (once_lock s) (Some o) (inst_lock s) (made s) (done s) (set_pc (pcs s) t (IUnlock c)) (log s))
| s_iunlock c o : pcs s t = IUnlock c -> inst s = Some o ->
    step M s t (mkS (first s) (once_lock s) (inst s) None (made s) (done s) (set_pc (pcs s) t (IRet c o)) (log s))
| s_iunwind_client : pcs s t = IUnwind Client ->
    step M s t (mkS (first s) (once_lock s) (inst s) None (made s) (done s) (set_pc (pcs s) t Out) (Raised t :: log s))
| s_iunwind_once : pcs s t = IUnwind Once ->
    step M s t (mkS (first s) (once_lock s) (inst s) None (made s) (done s) (set_pc (pcs s) t OUnwind) (log s))
| s_iret_client o : pcs s t = IRet Client o ->
    step M s t (mkS (first s) (once_lock s) (inst s) (inst_lock s) (made s) (done s) (set_pc (pcs s) t Out) (Instance t o :: log s))
| s_iret_once o : pcs s t = IRet Once o -> step M s t (goto s t (ORegister 0)).

(** Executions: any schedule. *)
Inductive reachable (M : nat) : state -> Prop :=
| r_init : reachable M init
| r_step s t s' : reachable M s -> step M s t s' -> reachable M s'.
