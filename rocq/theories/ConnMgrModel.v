(** The connections of one component of an IPCP,
    src/ipcpd/common/connmgr.c: the flows that were accepted and wait for
    the component, the connections in use, and disconnecting.

    Each critical section is one step, so a history is any interleaving of
    the threads.  Simplifications: malloc does not fail; a list element
    carries a number [key] that stands for its address; the contents of
    struct conn other than the descriptor and the destination are
    represented by the key as well. *)
From Coq Require Import NArith ZArith List Bool.
Import ListNotations.

Notation name := (list N).
Notation thread := nat.
Notation key := nat.

(* comp.h:39-46 struct conn, connmgr.c:47-50 struct conn_el.  The
   destination of an accepted connection is never written: [None]. *)
Record el := El { el_key : key; el_fd : Z; el_dst : option name }.

(* comp.h:28 *)
Definition DST_MAX_STRLEN : nat := 64.

Record state := State {
  pending : list el;          (* connmgr.comps[id].pending *)
  conns : list el;            (* connmgr.comps[id].conns *)
  busy : list (thread * el)   (* threads between the search and list_del of
                                 connmgr_ipcp_disconnect *)
}.
Definition start : state := State [] [] [].

Inductive out :=
| Nothing
| Handed (k : key)            (* connmgr_wait returned this connection *)
| Reported (k : key)          (* an event was passed on for this connection *)
| Closed (k : key) (fd : Z)   (* CONN_DEL and flow_dealloc *)
| Undefined.

Inductive event :=
| Accept (k : key) (fd : Z)
| Wait
| Connect (k : key) (fd : Z) (dst : name)
| Find (t : thread) (dst : name)
| Remove (t : thread)
| FlowEvent (fd : Z).

Definition name_eqb (a b : name) : bool := if list_eq_dec N.eq_dec a b then true else false.

(* connmgr.c:379-385 *)
Definition trunc (d : name) : name :=
  if Nat.ltb DST_MAX_STRLEN (length d) then firstn DST_MAX_STRLEN d else d.

(* connmgr.c:409-420: strcmp with each element in turn; None: the memory
   compared was never written. *)
Fixpoint search (dst : name) (l : list el) : option (option el) :=
  match l with
  | [] => Some None
  | e :: l' =>
      match el_dst e with
      | None => None
      | Some d => if name_eqb d dst then Some (Some e) else search dst l'
      end
  end.

(* connmgr.c:80-102 get_conn_by_fd *)
Fixpoint by_fd (fd : Z) (l : list el) : option el :=
  match l with
  | [] => None
  | e :: l' => if Z.eqb (el_fd e) fd then Some e else by_fd fd l'
  end.

Definition del (k : key) (l : list el) : list el :=
  filter (fun e => negb (Nat.eqb (el_key e) k)) l.
Definition mem (k : key) (l : list el) : bool := existsb (fun e => Nat.eqb (el_key e) k) l.
Fixpoint taken (t : thread) (l : list (thread * el)) : option el :=
  match l with
  | [] => None
  | (u, e) :: l' => if Nat.eqb u t then Some e else taken t l'
  end.
Definition leave (t : thread) (l : list (thread * el)) : list (thread * el) :=
  filter (fun p => negb (Nat.eqb (fst p) t)) l.

Definition step (s : state) (e : event) : state * out :=
  match e with
  (* connmgr.c:104-127 add_comp_conn: list_add puts it at the front *)
  | Accept k fd => (State (El k fd None :: pending s) (conns s) (busy s), Nothing)
  (* connmgr.c:529-564 connmgr_wait, when it finds something: the first
     element, moved to the front of the other list *)
  | Wait =>
      match pending s with
      | [] => (s, Nothing)
      | x :: p => (State p (x :: conns s) (busy s), Handed (el_key x))
      end
  (* connmgr.c:379-391, connmgr_ipcp_connect after connmgr_alloc *)
  | Connect k fd dst =>
      (State (pending s) (El k fd (Some (trunc dst)) :: conns s) (busy s), Nothing)
  (* connmgr.c:407-414: the lock is released before the element is taken
     out *)
  | Find t dst =>
      match search dst (conns s) with
      | None => (s, Undefined)
      | Some None => (s, Nothing)
      | Some (Some x) => (State (pending s) (conns s) ((t, x) :: busy s), Nothing)
      end
  (* connmgr.c:416-419: list_del, connmgr_dealloc, free; if another thread
     freed the element in the meantime this is a use after free *)
  | Remove t =>
      match taken t (busy s) with
      | None => (s, Nothing)
      | Some x =>
          if mem (el_key x) (conns s)
          then (State (pending s) (del (el_key x) (conns s)) (leave t (busy s)),
                Closed (el_key x) (el_fd x))
          else (s, Undefined)
      end
  (* connmgr.c:192-224 handle_event *)
  | FlowEvent fd =>
      match by_fd fd (conns s) with
      | Some x => (s, Reported (el_key x))
      | None => (s, Nothing)
      end
  end.

(** A history, latest event first, with what each event did. *)
Fixpoint run (h : list event) : state :=
  match h with [] => start | e :: h' => fst (step (run h') e) end.
Definition outcome (e : event) (h : list event) : out := snd (step (run h) e).
