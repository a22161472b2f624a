(** src/refcount.c and its use by aa_rx_geom_copy / aa_rx_geom_destroy
    (src/rx/scene_geom.c 172-181, 243-269): any number of threads, arbitrary
    interleaving of the individual memory accesses. *)
From Coq Require Import ZArith List Bool.
From Verif Require Import BitsModel.
Import ListNotations.
Open Scope Z_scope.

(** aa_rx_geom_copy takes a further reference, aa_rx_geom_destroy drops one. *)
Inductive opkind := Copy | Destroy.

(** Program counter inside a call. *)
Inductive pcs :=
| Idle
| AtomicOp (k : opkind)                (* about to do atomic_fetch_add/sub *)
| WaitLock (k : opkind)                (* pthread_mutex_lock *)
| Locked (k : opkind)                  (* unsigned old = *count; *)
| HaveOld (k : opkind) (old : Z)       (* load of ( *count)++ / -- *)
| HaveTmp (k : opkind) (old tmp : Z)   (* store of ( *count)++ / -- *)
| Stored (k : opkind) (old : Z)        (* pthread_mutex_unlock *)
| Ret (k : opkind) (old : Z).          (* after the call: test of oldcount *)

(** [held]: references the thread owns (client bookkeeping, not program state). *)
Record thread := mkTh { held : nat; pc : pcs; mutex_build : bool }.

Record state := mkSt { cnt : Z; lock : option nat; freed : bool; thr : list thread }.

Inductive result := Disabled | Bad | Next (s : state).

Definition wrap32 (x : Z) : Z := x mod 2 ^ 32.
Definition delta (k : opkind) : Z := match k with Copy => 1 | Destroy => -1 end.
Definition held_after (k : opkind) (h : nat) : nat := match k with Copy => S h | Destroy => pred h end.

Definition set_pc (s : state) (t : nat) (th : thread) (p : pcs) : list thread :=
  set_nth (thr s) t (mkTh (held th) p (mutex_build th)).

(** What a schedule chooses next: thread [t] begins a call, hands a reference over
    to thread [u], or performs the next access of the call it is in. *)
Inductive label := Begin (t : nat) (k : opkind) | Give (t u : nat) | Tick (t : nat).

(** [Bad]: access to the freed object, abort(), or double free. *)
Definition step (s : state) (l : label) : result :=
  match l with
  | Begin t k =>
      (* a thread calls copy/destroy only while it owns a reference *)
      match nth_error (thr s) t with
      | Some th =>
          match pc th with
          | Idle => if (0 <? held th)%nat
                    then Next (mkSt (cnt s) (lock s) (freed s)
                                 (set_pc s t th (if mutex_build th then WaitLock k else AtomicOp k)))
                    else Disabled
          | _ => Disabled
          end
      | None => Disabled
      end
  | Give t u =>
      match nth_error (thr s) t, nth_error (thr s) u with
      | Some th, Some uh =>
          match pc th with
          | Idle => if (0 <? held th)%nat && negb (t =? u)%nat
                    then Next (mkSt (cnt s) (lock s) (freed s)
                           (set_nth (set_nth (thr s) t (mkTh (pred (held th)) (pc th) (mutex_build th)))
                                    u (mkTh (S (held uh)) (pc uh) (mutex_build uh))))
                    else Disabled
          | _ => Disabled
          end
      | _, _ => Disabled
      end
  | Tick t =>
      match nth_error (thr s) t with
      | None => Disabled
      | Some th =>
          match pc th with
          | Idle => Disabled
          (* refcount.c 49-57 *)
          | AtomicOp k =>
              if freed s then Bad
              else Next (mkSt (wrap32 (cnt s + delta k)) (lock s) (freed s)
                     (set_nth (thr s) t (mkTh (held_after k (held th)) (Ret k (cnt s)) (mutex_build th))))
          (* refcount.c 73, 82 *)
          | WaitLock k =>
              match lock s with
              | None => Next (mkSt (cnt s) (Some t) (freed s) (set_pc s t th (Locked k)))
              | Some _ => Disabled
              end
          (* refcount.c 74, 83 *)
          | Locked k =>
              if freed s then Bad
              else Next (mkSt (cnt s) (lock s) (freed s) (set_pc s t th (HaveOld k (cnt s))))
          (* refcount.c 75, 84 *)
          | HaveOld k old =>
              if freed s then Bad
              else Next (mkSt (cnt s) (lock s) (freed s) (set_pc s t th (HaveTmp k old (cnt s))))
          | HaveTmp k old tmp =>
              if freed s then Bad
              else Next (mkSt (wrap32 (tmp + delta k)) (lock s) (freed s)
                     (set_nth (thr s) t (mkTh (held_after k (held th)) (Stored k old) (mutex_build th))))
          (* refcount.c 76, 85 *)
          | Stored k old => Next (mkSt (cnt s) None (freed s) (set_pc s t th (Ret k old)))
          (* scene_geom.c 174-180 *)
          | Ret Copy old =>
              if old =? 0 then Bad
              else Next (mkSt (cnt s) (lock s) (freed s) (set_pc s t th Idle))
          (* scene_geom.c 245-268; the mesh, collision and gl destructors are not modelled *)
          | Ret Destroy old =>
              if old =? 0 then Bad
              else if old =? 1
              then if freed s then Bad
                   else Next (mkSt (cnt s) (lock s) true (set_pc s t th Idle))
              else Next (mkSt (cnt s) (lock s) (freed s) (set_pc s t th Idle))
          end
      end
  end.

(** scene_geom.c 58-63 (ALLOC_GEOM): one reference, owned by thread 0 of [n]. *)
Definition init (styles : list bool) : state :=
  mkSt 1 None false
    (match styles with
     | [] => []
     | b :: r => mkTh 1 Idle b :: map (mkTh 0 Idle) r
     end).

Fixpoint run (s : state) (sched : list label) : result :=
  match sched with
  | [] => Next s
  | l :: r => match step s l with Next s' => run s' r | x => x end
  end.
