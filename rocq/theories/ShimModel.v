(** Model of the registry, directory and queries of the shim IPCPs,
    src/ipcpd/shim-data.c.  Hashes are byte strings; memcmp over
    ipcp_dir_hash_len() bytes is equality of strings of that length. *)
From Coq Require Import List NArith ZArith Bool.
Import ListNotations.
Open Scope N_scope.

Definition hash := list N.
Fixpoint heqb (a b : hash) : bool :=
  match a, b with
  | [], [] => true
  | x :: a', y :: b' => (x =? y) && heqb a' b'
  | _, _ => false
  end.

(** shim-data.h:54-63: the registry and the directory, each a list with the
    newest entry first (list_add). *)
Record shim : Type := mk_shim { registry : list hash; directory : list (hash * N) }.
(** shim-data.c:141-175, shim_data_create. *)
Definition shim_create : shim := mk_shim [] [].

(** shim-data.c:246-262, find_reg_entry_by_hash (whether it finds one). *)
Fixpoint find_reg (l : list hash) (h : hash) : bool :=
  match l with [] => false | x :: t => if heqb x h then true else find_reg t h end.
(** shim-data.c:264-278, find_dir_entry. *)
Fixpoint find_dir (l : list (hash * N)) (h : hash) (a : N) : bool :=
  match l with
  | [] => false
  | (x, b) :: t => if (b =? a) && heqb x h then true else find_dir t h a
  end.
(** shim-data.c:280-292, find_dir_entry_any: the address of the entry. *)
Fixpoint find_any (l : list (hash * N)) (h : hash) : option N :=
  match l with [] => None | (x, b) :: t => if heqb x h then Some b else find_any t h end.

(** list_del of the entry that was found (the first match). *)
Fixpoint del_reg (l : list hash) (h : hash) : list hash :=
  match l with [] => [] | x :: t => if heqb x h then t else x :: del_reg t h end.
Fixpoint del_dir (l : list (hash * N)) (h : hash) (a : N) : list (hash * N) :=
  match l with
  | [] => []
  | (x, b) :: t => if (b =? a) && heqb x h then t else (x, b) :: del_dir t h a
  end.

Inductive op : Type :=
| RegAdd (h : hash) | RegDel (h : hash) | RegHas (h : hash)
| DirAdd (h : hash) (a : N) | DirDel (h : hash) (a : N) | DirHas (h : hash) | DirGet (h : hash).
Inductive res : Type := ROk | RFail | RBool (b : bool) | RAddr (a : N).

(** shim-data.c:294-329 shim_data_reg_add_entry, 331-353 reg_del_entry, 355-369
    reg_has, 371-403 dir_add_entry, 405-428 dir_del_entry, 430-441 dir_has,
    443-460 dir_get_addr.  Simplification: malloc succeeds. *)
Definition step (s : shim) (o : op) : shim * res :=
  match o with
  | RegAdd h => if find_reg (registry s) h then (s, ROk)
                else (mk_shim (h :: registry s) (directory s), ROk)
  | RegDel h => if find_reg (registry s) h
                then (mk_shim (del_reg (registry s) h) (directory s), ROk) else (s, ROk)
  | RegHas h => (s, RBool (find_reg (registry s) h))
  | DirAdd h a => if find_dir (directory s) h a then (s, RFail)
                  else (mk_shim (registry s) ((h, a) :: directory s), ROk)
  | DirDel h a => if find_dir (directory s) h a
                  then (mk_shim (registry s) (del_dir (directory s) h a), ROk) else (s, ROk)
  | DirHas h => (s, RBool (match find_any (directory s) h with Some _ => true | None => false end))
  | DirGet h => (s, RAddr (match find_any (directory s) h with Some a => a | None => 0 end))
  end.
Fixpoint run (s : shim) (ops : list op) : list res :=
  match ops with [] => [] | o :: t => let '(s1, r) := step s o in r :: run s1 t end.

(** ** Queries *)

(** shim-data.h:33-39, enum dir_query_state. *)
Inductive qstate : Type := QInit | QPending | QResponse | QDone | QDestroy.
(** shim-data.h:41-48, struct dir_query; [qid] is its address. *)
Record query : Type := mk_q { qid : N; qhash : hash; qst : qstate }.
(** [listed] is data->dir_queries, newest first; [unlisted] the queries taken off
    the list but not yet freed; [holder] the query on whose condition the holder
    of dir_queries_lock waits. *)
Record qsys : Type := mk_qsys { listed : list query; unlisted : list query; holder : option N }.
Definition qsys0 : qsys := mk_qsys [] [] None.

Definition set_q (l : list query) (q : N) (s : qstate) : list query :=
  map (fun e => if qid e =? q then mk_q (qid e) (qhash e) s else e) l.
Definition get_q (s : qsys) (q : N) : option query :=
  find (fun e => qid e =? q) (listed s ++ unlisted s).
Definition del_q (l : list query) (q : N) : list query :=
  filter (fun e => negb (qid e =? q)) l.
Definition set_state (s : qsys) (q : N) (st : qstate) : qsys :=
  mk_qsys (set_q (listed s) q st) (set_q (unlisted s) q st) (holder s).

Inductive qlabel : Type :=
| LCreate (q : N) (h : hash)
| LRespond (h : hash)
| LWait (q : N) (ok : bool)               (* wait entered (or -EINVAL) *)
| LWaitEnd (q : N) (timedout : bool) (ret : Z)
| LDestroy (q : N).
Definition ETIMEDOUT : Z := 110.

Definition notify (s : qsys) (q : N) : qsys :=
  match holder s with
  | Some p => if p =? q then mk_qsys (listed s) (unlisted s) None else s
  | None => s
  end.

(** The steps of the threads that use queries. *)
Inductive qstep : qsys -> qlabel -> qsys -> Prop :=
(** shim-data.c:462-493, shim_data_dir_query_create (of a new object). *)
| q_create : forall s q h, holder s = None -> get_q s q = None ->
    qstep s (LCreate q h) (mk_qsys (mk_q q h QInit :: listed s) (unlisted s) (holder s))
(** shim-data.c:495-533, shim_data_dir_query_respond: the first query with the
    hash; nothing happens if there is none or it is not waiting. *)
| q_respond : forall s h e, holder s = None ->
    find (fun e => heqb (qhash e) h) (listed s) = Some e -> qst e = QPending ->
    qstep s (LRespond h)
      (mk_qsys (set_q (listed s) (qid e) QResponse) (unlisted s) (Some (qid e)))
| q_respond_not : forall s h, holder s = None ->
    (forall e, find (fun e => heqb (qhash e) h) (listed s) = Some e -> qst e <> QPending) ->
    qstep s (LRespond h) s
(** shim-data.c:546-566, shim_data_dir_query_wait up to its condition wait. *)
| q_wait : forall s q e, get_q s q = Some e -> qst e = QInit ->
    qstep s (LWait q true) (set_state s q QPending)
| q_wait_inval : forall s q e, get_q s q = Some e -> qst e <> QInit ->
    qstep s (LWait q false) s
(** shim-data.c:566-582, the rest of it: the loop ends when the state has left
    PENDING, or on a time-out. *)
| q_wait_end : forall s q e timedout ret, get_q s q = Some e ->
    (qst e = QResponse \/ qst e = QDestroy \/ (qst e = QPending /\ timedout = true)) ->
    ret = (match qst e with QDestroy => -1 | _ => if timedout then - ETIMEDOUT else 0 end)%Z ->
    qstep s (LWaitEnd q timedout ret) (notify (set_state s q QDone) q)
(** shim-data.c:535-544 shim_data_dir_query_destroy with 51-86 destroy_dir_query:
    freed at once, or after the waiting thread has been told. *)
| q_destroy : forall s q e, holder s = None ->
    find (fun e => qid e =? q) (listed s) = Some e -> qst e = QInit \/ qst e = QDone ->
    qstep s (LDestroy q) (mk_qsys (del_q (listed s) q) (unlisted s) None)
| q_destroy_pending : forall s q e, holder s = None ->
    find (fun e => qid e =? q) (listed s) = Some e -> qst e = QPending ->
    qstep s (LDestroy q)
      (mk_qsys (del_q (listed s) q) (mk_q q (qhash e) QDestroy :: unlisted s) (Some q)).

(** Reachable states with the history that led there, newest step first. *)
Inductive qreach : qsys -> list qlabel -> Prop :=
| qr0 : qreach qsys0 []
| qr1 : forall s hist l s', qreach s hist -> qstep s l s' -> qreach s' (l :: hist).
