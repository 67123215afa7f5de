(* Model of the link-state database of the unicast IPCP,
   src/ipcpd/unicast/routing/link-state.c.

   Simplifications: memory allocation succeeds; every handler is one
   atomic step (the database and the graph change together under db_lock;
   the forwarding table is recalculated within the step although the lock
   is released before); there is one routing instance (they are all
   treated alike); writing to a management flow succeeds.  The RIB
   functions and the threads are not modelled. *)

From Coq Require Import NArith ZArith List Bool.
From Verif Require Import GraphModel.
Import ListNotations.

(* link-state.c:59 *)
Definition LS_TIMEO : Z := 60.

(* link-state.c:67-71 struct lsa, a link-state message. *)
Record lsm : Type := Lsm { m_src : N; m_dst : N; m_seq : N }.

(* link-state.c:84-93 struct adjacency *)
Record adj : Type := Adj { a_src : N; a_dst : N; a_seq : N; a_stamp : Z }.

(* link-state.c:95-98 enum nb_type *)
Inductive nbt : Type := NB_DT | NB_MGMT.

Definition nbt_eqb (a b : nbt) : bool :=
  match a, b with NB_DT, NB_DT | NB_MGMT, NB_MGMT => true | _, _ => false end.

(* link-state.c:100-106 struct nb *)
Record nb : Type := Nb { n_addr : N; n_fd : N; n_type : nbt }.

(* link-state.c:108-129 ls, with the own address (ipcpi.dt_addr) and the
   routing instance (link-state.c:73-81): its flag `modified` and the
   entries of its PFF, as added since it was last flushed. *)
Record ls : Type := Ls {
  own : N; policy : algo; nbs : list nb; db : list adj; db_len : N; gr : graph;
  modified : bool; fwd : list (N * list N)
}.

Definition ls_init (addr : N) (a : algo) : ls :=
  Ls addr a [] [] 0 graph_create false [].

Definition with_nbs (l : ls) (n : list nb) : ls :=
  Ls (own l) (policy l) n (db l) (db_len l) (gr l) (modified l) (fwd l).

Definition with_db (l : ls) (d : list adj) (len : N) (g : graph) : ls :=
  Ls (own l) (policy l) (nbs l) d len g (modified l) (fwd l).

Definition with_mod (l : ls) (m : bool) : ls :=
  Ls (own l) (policy l) (nbs l) (db l) (db_len l) (gr l) m (fwd l).

Definition with_fwd (l : ls) (f : list (N * list N)) : ls :=
  Ls (own l) (policy l) (nbs l) (db l) (db_len l) (gr l) (modified l) f.

(* link-state.c:315-361 lsdb_add_nb.  A neighbour that is known gets the
   new flow descriptor (-EPERM). *)
Fixpoint lsdb_add_nb (addr fd : N) (ty : nbt) (l : list nb) : list nb :=
  match l with
  | [] => [Nb addr fd ty]
  | el :: l' =>
      if N.eqb (n_addr el) addr && nbt_eqb (n_type el) ty
      then Nb addr fd ty :: l'
      else if N.ltb (n_addr el) addr then Nb addr fd ty :: el :: l'
      else el :: lsdb_add_nb addr fd ty l'
  end.

(* link-state.c:363-387 lsdb_del_nb: the first with address and fd. *)
Fixpoint lsdb_del_nb (addr fd : N) (l : list nb) : list nb :=
  match l with
  | [] => []
  | el :: l' =>
      if N.eqb (n_addr el) addr && N.eqb (n_fd el) fd then l'
      else el :: lsdb_del_nb addr fd l'
  end.

(* link-state.c:389-408 nbr_to_fd; None is -1. *)
Fixpoint nbr_to_fd (l : list nb) (addr : N) : option N :=
  match l with
  | [] => None
  | el :: l' =>
      if N.eqb (n_addr el) addr && nbt_eqb (n_type el) NB_DT then Some (n_fd el)
      else nbr_to_fd l' addr
  end.

(* link-state.c:434-442: the flow descriptors of the next hops, in an
   array of PROG_MAX_FLOWS elements; i is the number so far. *)
Fixpoint nhop_fds (l : list nb) (i : Z) (hs : list N) : res (list N) :=
  match hs with
  | [] => Ok []
  | h :: hs' =>
      match nbr_to_fd l h with
      | None => nhop_fds l i hs'
      | Some fd =>
          if Z.leb PROG_MAX_FLOWS i then UB
          else rbind (nhop_fds l (i + 1) hs') (fun fds => Ok (fd :: fds))
      end
  end.

(* link-state.c:428-445: the entries, in the order in which they are
   added to the flushed PFF. *)
Fixpoint fwd_entries (l : list nb) (t : list (N * list N)) : res (list (N * list N)) :=
  match t with
  | [] => Ok []
  | (d, hs) :: t' =>
      rbind (nhop_fds l 0 hs) (fun fds =>
      rbind (fwd_entries l t') (fun r =>
      Ok (match fds with [] => r | _ => (d, fds) :: r end)))
  end.

(* link-state.c:410-448 calculate_pff: nothing happens if there is no
   routing table. *)
Definition calculate_pff (ovf : overflow) (l : ls) : res ls :=
  match graph_routing_table ovf (gr l) (policy l) (own l) with
  | UB => UB
  | Err => Ok l
  | Ok t => rbind (fwd_entries (nbs l) t) (fun f => Ok (with_fwd l f))
  end.

(* link-state.c:452-467 set_pff_modified *)
Definition set_pff_modified (ovf : overflow) (l : ls) (calc : bool) : res ls :=
  let l' := with_mod l true in if calc then calculate_pff ovf l' else Ok l'.

(* link-state.c:485-512: the entry for the link, if there is one, with
   whether it was updated; otherwise the new entry is put in its place. *)
Fixpoint db_put (s d q : N) (now : Z) (l : list adj) : option bool * list adj :=
  match l with
  | [] => (None, [Adj s d q now])
  | a :: l' =>
      if N.eqb (a_dst a) d && N.eqb (a_src a) s
      then if N.ltb (a_seq a) q then (Some true, Adj s d q now :: l')
           else (Some false, a :: l')
      else if N.ltb d (a_dst a) || (N.eqb (a_dst a) d && N.ltb s (a_src a))
      then (None, Adj s d q now :: a :: l')
      else let (r, l'') := db_put s d q now l' in (r, a :: l'')
  end.

(* A failure of the graph is only logged. *)
Definition graph_or (g : graph) (r : res graph) : res graph :=
  match r with Ok g' => Ok g' | Err => Ok g | UB => UB end.

(* link-state.c:469-524 lsdb_add_link; true is the return value 0. *)
Definition lsdb_add_link (ovf : overflow) (l : ls) (s d q : N) (now : Z)
  : res (ls * bool) :=
  match db_put s d q now (db l) with
  | (Some r, db') => Ok (with_db l db' (db_len l) (gr l), r)
  | (None, db') =>
      rbind (graph_or (gr l) (graph_update_edge (gr l) s d)) (fun g =>
      rbind (set_pff_modified ovf (with_db l db' (db_len l + 1) g) true) (fun l' =>
      Ok (l', true)))
  end.

(* list_del of the entry that was found. *)
Fixpoint db_del (s d : N) (l : list adj) : option (list adj) :=
  match l with
  | [] => None
  | a :: l' =>
      if N.eqb (a_dst a) d && N.eqb (a_src a) s then Some l'
      else option_map (cons a) (db_del s d l')
  end.

(* size_t subtraction *)
Definition dec64 (x : N) : N := ((x + 18446744073709551615) mod 18446744073709551616)%N.

(* link-state.c:526-553 lsdb_del_link; the return value is not used. *)
Definition lsdb_del_link (ovf : overflow) (l : ls) (s d : N) : res ls :=
  match db_del s d (db l) with
  | None => Ok l
  | Some db' =>
      rbind (graph_or (gr l) (graph_del_edge (gr l) s d)) (fun g =>
      set_pff_modified ovf (with_db l db' (dec64 (db_len l)) g) false)
  end.

(* link-state.c:555-577 periodic_recalc_pff: one round. *)
Definition recalc (ovf : overflow) (l : ls) : res ls :=
  if modified l then calculate_pff ovf (with_mod l false) else Ok l.

(* The management flows. *)
Definition mgmt_fds (l : list nb) : list N :=
  map n_fd (filter (fun el => nbt_eqb (n_type el) NB_MGMT) l).

(* link-state.c:579-595 send_lsm: the messages written, with the flow. *)
Definition send_lsm (l : list nb) (m : lsm) : list (N * lsm) :=
  map (fun fd => (fd, m)) (mgmt_fds l).

(* link-state.c:598-639 lsdb_replicate *)
Definition lsdb_replicate (d : list adj) (fd : N) : list (N * lsm) :=
  map (fun a => (fd, Lsm (a_src a) (a_dst a) (a_seq a))) d.

Definition inc64 (x : N) : N := ((x + 1) mod 18446744073709551616)%N.

(* link-state.c:656-675: the loop of lsupdate. *)
Fixpoint update_loop (me : N) (now : Z) (ns : list nb) (g : graph) (l : list adj)
  : res (list adj * graph * list (N * lsm)) :=
  match l with
  | [] => Ok ([], g, [])
  | a :: l' =>
      if Z.ltb LS_TIMEO (now - a_stamp a) then
        rbind (graph_or g (graph_del_edge g (a_src a) (a_dst a))) (fun g' =>
        update_loop me now ns g' l')
      else
        let own := N.eqb (a_src a) me in
        let a' := if own then Adj (a_src a) (a_dst a) (inc64 (a_seq a)) now else a in
        rbind (update_loop me now ns g l') (fun '(r, g', out) =>
        Ok (a' :: r, g',
            (if own then send_lsm ns (Lsm (a_src a') (a_dst a') (a_seq a')) else [])
            ++ out))
  end.

(* link-state.c:641-683 lsupdate: one round.  db_len is not changed, nor
   is the routing instance told. *)
Definition lsupdate (l : ls) (now : Z) : res (ls * list (N * lsm)) :=
  rbind (update_loop (own l) now (nbs l) (gr l) (db l)) (fun '(d, g, out) =>
  Ok (with_db l d (db_len l) g, out)).

(* link-state.c:706-723 forward_lsm: to every management flow but the one
   it came from. *)
Definition forward_lsm (l : list nb) (in_fd : N) (m : lsm) : list (N * lsm) :=
  map (fun fd => (fd, m)) (filter (fun fd => negb (N.eqb fd in_fd)) (mgmt_fds l)).

(* link-state.c:761-773 lsreader: one message of the right length.  The
   flag says whether it was accepted. *)
Definition recv_lsm (ovf : overflow) (l : ls) (fd : N) (m : lsm) (now : Z)
  : res (ls * (bool * list (N * lsm))) :=
  rbind (lsdb_add_link ovf l (m_src m) (m_dst m) (m_seq m) now) (fun '(l', ok) =>
  Ok (l', (ok, if ok then forward_lsm (nbs l') fd m else []))).

(* What happens at a node: connections come and go (link-state.c:800-867
   handle_event), a message arrives, the threads do a round. *)
Inductive event : Type :=
| DtAdd (addr fd : N) (now : Z)
| DtDel (addr fd : N)
| MgmtAdd (addr fd : N)
| MgmtDel (addr fd : N)
| Recv (fd : N) (m : lsm) (now : Z)
| Update (now : Z)
| Recalc.

(* The next state, whether a message was accepted, and the messages
   sent. *)
Definition ls_step (ovf : overflow) (l : ls) (e : event)
  : res (ls * (bool * list (N * lsm))) :=
  match e with
  | DtAdd addr fd now =>
      let out := send_lsm (nbs l) (Lsm (own l) addr 0) in
      let l1 := with_nbs l (lsdb_add_nb addr fd NB_DT (nbs l)) in
      rbind (lsdb_add_link ovf l1 (own l1) addr 0 now) (fun '(l2, _) =>
      Ok (l2, (false, out)))
  | DtDel addr fd =>
      let l1 := with_nbs l (lsdb_del_nb addr fd (nbs l)) in
      rbind (lsdb_del_link ovf l1 (own l1) addr) (fun l2 => Ok (l2, (false, [])))
  | MgmtAdd addr fd =>
      let l1 := with_nbs l (lsdb_add_nb addr fd NB_MGMT (nbs l)) in
      Ok (l1, (false, lsdb_replicate (db l1) fd))
  | MgmtDel addr fd =>
      Ok (with_nbs l (lsdb_del_nb addr fd (nbs l)), (false, []))
  | Recv fd m now => recv_lsm ovf l fd m now
  | Update now => rbind (lsupdate l now) (fun '(l', out) => Ok (l', (false, out)))
  | Recalc => rbind (recalc ovf l) (fun l' => Ok (l', (false, [])))
  end.

(* A history of events: the observations and the final state. *)
Fixpoint ls_run (ovf : overflow) (l : ls) (es : list event)
  : res (ls * list (bool * list (N * lsm))) :=
  match es with
  | [] => Ok (l, [])
  | e :: es' =>
      rbind (ls_step ovf l e) (fun '(l', o) =>
      rbind (ls_run ovf l' es') (fun '(l'', os) => Ok (l'', o :: os)))
  end.

(* ---- A network ---- *)

(* A message on its way: to a node, on a flow of that node. *)
Record flight : Type := Flight { to_node : N; to_fd : N; msg : lsm }.

(* The nodes, by address, and the messages on their way, in any order. *)
Record net : Type := Net { nodes : N -> ls; flying : list flight }.

(* peer x fd: the node and the flow descriptor at the other end. *)
Definition wire (peer : N -> N -> option (N * N)) (x : N) (out : list (N * lsm))
  : list flight :=
  flat_map (fun p =>
    match peer x (fst p) with
    | Some (y, fd) => [Flight y fd (snd p)]
    | None => []
    end) out.

Definition set_node (n : net) (x : N) (l : ls) : N -> ls :=
  fun y => if N.eqb y x then l else nodes n y.

(* An event other than the arrival of a message at node x. *)
Inductive net_local (ovf : overflow) (peer : N -> N -> option (N * N))
  (n : net) (x : N) (e : event) : net -> Prop :=
| net_local_intro : forall l o, (forall fd m now, e <> Recv fd m now) ->
    ls_step ovf (nodes n x) e = Ok (l, o) ->
    net_local ovf peer n x e
      (Net (set_node n x l) (flying n ++ wire peer x (snd o))).

(* A message on its way arrives; ok: it is accepted. *)
Inductive net_deliver (ovf : overflow) (peer : N -> N -> option (N * N))
  (n : net) (x : N) (m : lsm) (ok : bool) : net -> Prop :=
| net_deliver_intro : forall fd now a b l out,
    flying n = a ++ Flight x fd m :: b ->
    ls_step ovf (nodes n x) (Recv fd m now) = Ok (l, (ok, out)) ->
    net_deliver ovf peer n x m ok
      (Net (set_node n x l) (a ++ b ++ wire peer x out)).
