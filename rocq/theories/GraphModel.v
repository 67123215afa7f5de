(* Model of the link-state graph and its routing tables:
   src/ipcpd/unicast/routing/graph.c. *)

From Coq Require Import NArith ZArith List Bool.
From Verif Require Import GraphSpec.
Import ListNotations.

(* graph.c:52-57 struct edge: the neighbour is a pointer, modelled as
   the identity of a vertex.  The QoS of an edge is never read and is
   left out.  `announced` is an int, modelled without overflow (2^31
   announcements of one link). *)
Record edge : Type := Edge { enb : N; eann : Z }.

(* graph.c:45-50 struct vertex.  `vid` is the identity of the allocated
   object (its address in memory). *)
Record vertex : Type := Vertex
  { vid : N; vaddr : N; vedges : list edge; vindex : Z }.

(* graph.c:59-63 struct graph.  `gnext` is the next fresh identity: an
   identity is never reused, so a stale pointer is always noticed.  The
   lock is left out: every function holds it from start to end. *)
Record graph : Type := Graph
  { gnr : Z; gvs : list vertex; gnext : N }.

Definition with_vs (g : graph) (vs : list vertex) : graph :=
  Graph (gnr g) vs (gnext g).

(* Dereferencing a vertex pointer; None: the vertex was freed. *)
Definition deref (g : graph) (id : N) : option vertex :=
  find (fun v => N.eqb (vid v) id) (gvs g).

(* Result of a function: UB is undefined behaviour (use of freed memory,
   access out of bounds, signed overflow). *)
Inductive res (A : Type) : Type :=
| Ok : A -> res A
| Err : res A
| UB : res A.
Arguments Ok {A} _.
Arguments Err {A}.
Arguments UB {A}.

Definition rbind {A B : Type} (m : res A) (f : A -> res B) : res B :=
  match m with Ok a => f a | Err => Err | UB => UB end.

Definition lift {A : Type} (o : option A) : res A :=
  match o with Some a => Ok a | None => UB end.

(* graph.c:65-79 find_edge_by_addr: the first edge whose neighbour has
   that address; every edge before it is dereferenced. *)
Fixpoint find_edge (g : graph) (es : list edge) (dst : N) : res (option edge) :=
  match es with
  | [] => Ok None
  | e :: es' =>
      rbind (lift (deref g (enb e))) (fun nb =>
        if N.eqb (vaddr nb) dst then Ok (Some e) else find_edge g es' dst)
  end.

(* graph.c:81-95 find_vertex_by_addr *)
Definition find_vertex (g : graph) (addr : N) : option vertex :=
  find (fun v => N.eqb (vaddr v) addr) (gvs g).

(* Assignment through a vertex pointer. *)
Definition upd_vertex (g : graph) (id : N) (f : vertex -> vertex) : graph :=
  with_vs g (map (fun v => if N.eqb (vid v) id then f v else v) (gvs g)).

Definition set_edges (f : list edge -> list edge) (v : vertex) : vertex :=
  Vertex (vid v) (vaddr v) (f (vedges v)) (vindex v).

(* graph.c:97-115 add_edge: at the front, announced 0.  malloc is
   assumed to succeed, here and below. *)
Definition add_edge (g : graph) (v nb : N) : graph :=
  upd_vertex g v (set_edges (fun es => Edge nb 0 :: es)).

(* Assignment to `announced` of the edge with neighbour nb: an edge is
   identified by its vertex and its neighbour; the first such edge is
   the one find_edge returned. *)
Fixpoint upd_ann (nb : N) (d : Z) (es : list edge) : list edge :=
  match es with
  | [] => []
  | e :: es' =>
      if N.eqb (enb e) nb then Edge nb (eann e + d) :: es'
      else e :: upd_ann nb d es'
  end.

(* graph.c:117-123 del_edge *)
Fixpoint rem_edge (nb : N) (es : list edge) : list edge :=
  match es with
  | [] => []
  | e :: es' => if N.eqb (enb e) nb then es' else e :: rem_edge nb es'
  end.

(* graph.c:142-150: the position of a new vertex, before the first
   vertex with a larger address; its index is the number of vertices
   passed.  Then (152-157) the index of every vertex with a larger
   address is incremented. *)
Fixpoint ins_vertex (id addr : N) (i : Z) (vs : list vertex) : list vertex :=
  match vs with
  | [] => [Vertex id addr [] i]
  | v :: vs' =>
      if N.ltb addr (vaddr v) then Vertex id addr [] i :: vs
      else v :: ins_vertex id addr (i + 1) vs'
  end.

Definition bump_index (addr : N) (d : Z) (v : vertex) : vertex :=
  if N.ltb addr (vaddr v)
  then Vertex (vid v) (vaddr v) (vedges v) (vindex v + d) else v.

(* graph.c:125-163 add_vertex; returns the identity of the vertex. *)
Definition add_vertex (g : graph) (addr : N) : graph * N :=
  let vs := map (bump_index addr 1) (ins_vertex (gnext g) addr 0 (gvs g)) in
  (Graph (gnr g + 1) vs (gnext g + 1), gnext g).

(* graph.c:165-191 del_vertex *)
Definition del_vertex (g : graph) (id : N) : res graph :=
  rbind (lift (deref g id)) (fun v =>
    let vs := filter (fun w => negb (N.eqb (vid w) id)) (gvs g) in
    Ok (Graph (gnr g - 1) (map (bump_index (vaddr v) (-1)) vs) (gnext g))).

(* graph.c:193-210 graph_create *)
Definition graph_create : graph := Graph 0 [] 0.

Definition get_vertex (g : graph) (addr : N) : graph * N :=
  match find_vertex g addr with
  | Some v => (g, vid v)
  | None => add_vertex g addr
  end.

(* graph.c:265-281, 284-302: find or add the edge from v to the vertex nb
   with address addr, and count one more announcement. *)
Definition announce (g : graph) (v nb addr : N) : res graph :=
  rbind (lift (deref g v)) (fun vv =>
  rbind (find_edge g (vedges vv) addr) (fun o =>
    match o with
    | Some e => Ok (upd_vertex g v (set_edges (upd_ann (enb e) 1)))
    | None =>
        let g' := add_edge g v nb in
        Ok (upd_vertex g' v (set_edges (upd_ann nb 1)))
    end)).

(* graph.c:233-308 graph_update_edge *)
Definition graph_update_edge (g : graph) (s d : N) : res graph :=
  let (g1, v) := get_vertex g s in
  let (g2, nb) := get_vertex g1 d in
  rbind (announce g2 v nb d) (fun g3 =>
  announce g3 nb v s).

(* graph.c:351-354: one announcement less; the edge goes with the last. *)
Definition withdraw (g : graph) (v nb : N) : res graph :=
  rbind (lift (deref g v)) (fun vv =>
  rbind (lift (find (fun e => N.eqb (enb e) nb) (vedges vv))) (fun e =>
    if Z.eqb (eann e - 1) 0
    then Ok (upd_vertex g v (set_edges (rem_edge nb)))
    else Ok (upd_vertex g v (set_edges (upd_ann nb (-1)))))).

(* graph.c:357-360: remove the vertex if it was the last edge. *)
Definition reap (g : graph) (v : N) : res graph :=
  rbind (lift (deref g v)) (fun vv =>
    match vedges vv with
    | [] => del_vertex g v
    | _ => Ok g
    end).

(* graph.c:310-365 graph_del_edge; Err is the return value -1. *)
Definition graph_del_edge (g : graph) (s d : N) : res graph :=
  match find_vertex g s with
  | None => Err
  | Some v =>
  match find_vertex g d with
  | None => Err
  | Some nb =>
  rbind (find_edge g (vedges v) d) (fun o =>
  match o with
  | None => Err
  | Some e =>
  rbind (find_edge g (vedges nb) s) (fun o' =>
  match o' with
  | None => Err
  | Some nb_e =>
      rbind (withdraw g (vid v) (enb e)) (fun g1 =>
      rbind (withdraw g1 (vid nb) (enb nb_e)) (fun g2 =>
      rbind (reap g2 (vid v)) (fun g3 =>
      reap g3 (vid nb))))
  end) end) end end.

(* ---- Dijkstra ---- *)

(* limits.h INT_MAX *)
Definition INT_MAX : Z := 2147483647.

(* Array accesses with an int index. *)
Definition aget {A : Type} (l : list A) (i : Z) : res A :=
  if Z.ltb i 0 then UB else lift (nth_error l (Z.to_nat i)).

Fixpoint set_nth {A : Type} (i : nat) (x : A) (l : list A) : list A :=
  match l with
  | [] => []
  | y :: l' => match i with O => x :: l' | S i' => y :: set_nth i' x l' end
  end.

Definition aset {A : Type} (l : list A) (i : Z) (x : A) : res (list A) :=
  rbind (aget l i) (fun _ => Ok (set_nth (Z.to_nat i) x l)).

(* graph.c:384-393: the loop of get_min_vertex; best is the pair of
   index and v, min the smallest distance so far. *)
Fixpoint get_min_loop (vs : list vertex) (dist : list Z) (used : list bool)
    (i min : Z) (best : option (Z * vertex)) : res (option (Z * vertex)) :=
  match vs with
  | [] => Ok best
  | v :: vs' =>
      rbind (aget used i) (fun u =>
      rbind (aget dist i) (fun di =>
        if negb u && Z.ltb di min
        then get_min_loop vs' dist used (i + 1) di (Some (i, v))
        else get_min_loop vs' dist used (i + 1) min best))
  end.

(* graph.c:367-398 get_min_vertex *)
Definition get_min_vertex (g : graph) (dist : list Z) (used : list bool)
  : res (option (Z * vertex) * list bool) :=
  rbind (get_min_loop (gvs g) dist used 0 INT_MAX None) (fun b =>
    match b with
    | None => Ok (None, used)
    | Some (i, v) => rbind (aset used i true) (fun used' => Ok (Some (i, v), used'))
    end).

(* graph.c:441-459: the edges of the chosen vertex v, at position i. *)
Fixpoint relax (g : graph) (src : N) (v : vertex) (i : Z) (es : list edge)
    (dist : list Z) (nhops : list (option N)) : res (list Z * list (option N)) :=
  match es with
  | [] => Ok (dist, nhops)
  | e :: es' =>
      if negb (Z.eqb (eann e) 2) then relax g src v i es' dist nhops
      else
        rbind (aget dist i) (fun di =>
        let alt := (di + 1)%Z in
        if Z.ltb INT_MAX alt then UB else
        rbind (lift (deref g (enb e))) (fun nb =>
        rbind (aget dist (vindex nb)) (fun dn =>
        if Z.ltb alt dn
        then
          rbind (aset dist (vindex nb) alt) (fun dist' =>
          rbind (if N.eqb (vaddr v) src then Ok (Some (enb e)) else aget nhops i)
            (fun h =>
          rbind (aset nhops (vindex nb) h) (fun nhops' =>
          relax g src v i es' dist' nhops')))
        else relax g src v i es' dist nhops)))
  end.

(* graph.c:439-463: the loop; fuel bounds the number of vertices taken
   (proved never to run out: see dijkstra). *)
Fixpoint dijkstra_loop (fuel : nat) (g : graph) (src : N) (dist : list Z)
    (nhops : list (option N)) (used : list bool)
  : res (list Z * list (option N)) :=
  rbind (get_min_vertex g dist used) (fun '(b, used') =>
    match b with
    | None => Ok (dist, nhops)
    | Some (i, v) =>
        match fuel with
        | O => UB
        | S fuel' =>
            rbind (relax g src v i (vedges v) dist nhops) (fun '(dist', nhops') =>
              dijkstra_loop fuel' g src dist' nhops' used')
        end
    end).

(* graph.c:400-476 dijkstra: the arrays have nr_vertices elements. *)
Definition dijkstra (g : graph) (src : N) : res (list Z * list (option N)) :=
  if Z.eqb (gnr g) (Z.of_nat (length (gvs g))) then
    let dist := map (fun v => if N.eqb (vaddr v) src then 0%Z else INT_MAX) (gvs g) in
    let nhops := map (fun _ => None) (gvs g) in
    let used := map (fun _ => false) (gvs g) in
    dijkstra_loop (length (gvs g)) g src dist nhops used
  else UB.

(* graph.c:535-565: the table, built by adding at the front; i is the
   running index into nhops. *)
Fixpoint table_loop (g : graph) (nhops : list (option N)) (i : Z)
    (vs : list vertex) (table : list (N * list N)) : res (list (N * list N)) :=
  match vs with
  | [] => Ok table
  | v :: vs' =>
      rbind (aget nhops i) (fun h =>
        match h with
        | None => table_loop g nhops (i + 1) vs' table
        | Some id =>
            rbind (lift (deref g id)) (fun nb =>
            table_loop g nhops (i + 1) vs' ((vaddr v, [vaddr nb]) :: table))
        end)
  end.

(* graph.c:513-580 graph_routing_table_simple: the table and dist. *)
Definition routing_table_simple (g : graph) (s : N)
  : res (list (N * list N) * list Z) :=
  if Z.ltb (gnr g) 2 then Err
  else
    rbind (dijkstra g s) (fun '(dist, nhops) =>
    rbind (table_loop g nhops 0 (gvs g) []) (fun t => Ok (t, dist))).

(* ---- Loop-free alternates ---- *)

(* An int addition: on overflow the behaviour is undefined; `ovf` says
   what the compiled program does with the exact sum. *)
Definition overflow : Type := Z -> res Z.

(* Undefined behaviour taken as an error. *)
Definition trap : overflow := fun _ => UB.

(* The sum modulo 2^32, as an int. *)
Definition wrap : overflow :=
  fun z => Ok ((z + 2147483648) mod 4294967296 - 2147483648)%Z.

Definition int_add (ovf : overflow) (a b : Z) : res Z :=
  if Z.leb (a + b) INT_MAX && Z.leb (- INT_MAX - 1) (a + b)
  then Ok (a + b)%Z else ovf (a + b)%Z.

(* graph.c:582-609 add_lfa_to_table: at the end of the next hops of the
   first entry for that address; Err when there is none. *)
Fixpoint add_lfa (table : list (N * list N)) (addr lfa : N)
  : res (list (N * list N)) :=
  match table with
  | [] => Err
  | (d, hs) :: t =>
      if N.eqb d addr then Ok ((d, hs ++ [lfa]) :: t)
      else rbind (add_lfa t addr lfa) (fun t' => Ok ((d, hs) :: t'))
  end.

(* config.h.in, ipcpd/config.h.in PROG_MAX_FLOWS *)
Definition PROG_MAX_FLOWS : Z := 4096.

(* A neighbour of the source in the arrays addrs, n_index and n_dist. *)
Record lfa_nb : Type := LfaNb { l_addr : N; l_index : Z; l_dist : list Z }.

(* graph.c:647-657: the distances for every neighbour of the source; i is
   the number of neighbours so far, the arrays have PROG_MAX_FLOWS
   elements. *)
Fixpoint lfa_nbs (g : graph) (i : Z) (es : list edge) : res (list lfa_nb) :=
  match es with
  | [] => Ok []
  | e :: es' =>
      if Z.leb PROG_MAX_FLOWS i then UB else
      rbind (lift (deref g (enb e))) (fun nb =>
      rbind (dijkstra g (vaddr nb)) (fun '(dist, _) =>
      rbind (lfa_nbs g (i + 1) es') (fun l =>
      Ok (LfaNb (vaddr nb) (vindex nb) dist :: l))))
  end.

(* graph.c:675-686: the neighbours, for one destination v. *)
Fixpoint lfa_dest (ovf : overflow) (dist : list Z) (v : vertex)
    (l : list lfa_nb) (table : list (N * list N)) : res (list (N * list N)) :=
  match l with
  | [] => Ok table
  | n :: l' =>
      if N.eqb (l_addr n) (vaddr v) then lfa_dest ovf dist v l' table
      else
        rbind (aget (l_dist n) (vindex v)) (fun nd =>
        rbind (aget dist (l_index n)) (fun dn =>
        rbind (aget dist (vindex v)) (fun dv =>
        rbind (int_add ovf dn dv) (fun sum =>
        if Z.ltb nd sum
        then rbind (add_lfa table (vaddr v) (l_addr n)) (fun t =>
             lfa_dest ovf dist v l' t)
        else lfa_dest ovf dist v l' table))))
  end.

(* graph.c:663-687: every destination but the source. *)
Fixpoint lfa_dests (ovf : overflow) (s : N) (dist : list Z) (l : list lfa_nb)
    (vs : list vertex) (table : list (N * list N)) : res (list (N * list N)) :=
  match vs with
  | [] => Ok table
  | v :: vs' =>
      if N.eqb (vaddr v) s then lfa_dests ovf s dist l vs' table
      else rbind (lfa_dest ovf dist v l table) (fun t =>
           lfa_dests ovf s dist l vs' t)
  end.

(* graph.c:611-699 graph_routing_table_lfa.  When the source is not in
   the graph there are no neighbours (635-660). *)
Definition routing_table_lfa (ovf : overflow) (g : graph) (s : N)
  : res (list (N * list N) * list Z) :=
  rbind (routing_table_simple g s) (fun '(table, dist) =>
  rbind (match find_vertex g s with
         | Some v => lfa_nbs g 0 (vedges v)
         | None => Ok []
         end) (fun l =>
  rbind (lfa_dests ovf s dist l (gvs g) table) (fun t =>
  Ok (t, dist)))).

(* ---- Equal-cost multipath ---- *)

(* graph.c:748-761: add neighbour nb to the lists of the vertices whose
   distance from nb is one less than from the source. *)
Fixpoint ecmp_nb (ovf : overflow) (nb : N) (dist tmp : list Z)
    (vs : list vertex) (fwd : list (list N)) : res (list (list N)) :=
  match vs with
  | [] => Ok fwd
  | v :: vs' =>
      rbind (aget tmp (vindex v)) (fun td =>
      rbind (int_add ovf td 1) (fun td1 =>
      rbind (aget dist (vindex v)) (fun dv =>
      if Z.eqb td1 dv
      then rbind (aget fwd (vindex v)) (fun hs =>
           rbind (aset fwd (vindex v) (hs ++ [nb])) (fun fwd' =>
           ecmp_nb ovf nb dist tmp vs' fwd'))
      else ecmp_nb ovf nb dist tmp vs' fwd)))
  end.

(* graph.c:739-764: every edge of the source. *)
Fixpoint ecmp_nbs (ovf : overflow) (g : graph) (dist : list Z)
    (es : list edge) (fwd : list (list N)) : res (list (list N)) :=
  match es with
  | [] => Ok fwd
  | e :: es' =>
      rbind (lift (deref g (enb e))) (fun nb =>
      rbind (dijkstra g (vaddr nb)) (fun '(tmp, _) =>
      rbind (ecmp_nb ovf (vaddr nb) dist tmp (gvs g) fwd) (fun fwd' =>
      ecmp_nbs ovf g dist es' fwd')))
  end.

(* graph.c:766-790: one entry per vertex but the source. *)
Fixpoint ecmp_table (s : N) (fwd : list (list N)) (i : Z) (vs : list vertex)
    (table : list (N * list N)) : res (list (N * list N)) :=
  match vs with
  | [] => Ok table
  | v :: vs' =>
      if N.eqb (vaddr v) s then ecmp_table s fwd (i + 1) vs' table
      else rbind (aget fwd i) (fun hs =>
           ecmp_table s fwd (i + 1) vs' ((vaddr v, hs) :: table))
  end.

(* graph.c:701-806 graph_routing_table_ecmp *)
Definition routing_table_ecmp (ovf : overflow) (g : graph) (s : N)
  : res (list (N * list N)) :=
  if Z.ltb (gnr g) 2 then Err
  else
    rbind (dijkstra g s) (fun '(dist, _) =>
    match find_vertex g s with
    | None => Err
    | Some v =>
        rbind (ecmp_nbs ovf g dist (vedges v) (map (fun _ => []) (gvs g))) (fun fwd =>
        ecmp_table s fwd 0 (gvs g) [])
    end).

(* routing.h / graph.h enum routing_algo *)
Inductive algo : Type := ROUTING_SIMPLE | ROUTING_LFA | ROUTING_ECMP.

(* graph.c:808-849 graph_routing_table *)
Definition graph_routing_table (ovf : overflow) (g : graph) (a : algo) (s : N)
  : res (list (N * list N)) :=
  match a with
  | ROUTING_SIMPLE => rbind (routing_table_simple g s) (fun '(t, _) => Ok t)
  | ROUTING_LFA => rbind (routing_table_lfa ovf g s) (fun '(t, _) => Ok t)
  | ROUTING_ECMP => routing_table_ecmp ovf g s
  end.

(* A history of calls: the return values (true: 0, false: -1) and the
   graph; a refused call leaves the graph unchanged (graph.c:323-347). *)
Definition graph_step (g : graph) (o : gop) : res (bool * graph) :=
  match (match o with
         | Announce s d => graph_update_edge g s d
         | Withdraw s d => graph_del_edge g s d
         end) with
  | Ok g' => Ok (true, g')
  | Err => Ok (false, g)
  | UB => UB
  end.

Fixpoint graph_run (g : graph) (l : list gop) : res (list bool * graph) :=
  match l with
  | [] => Ok ([], g)
  | o :: l' =>
      rbind (graph_step g o) (fun '(r, g') =>
      rbind (graph_run g' l') (fun '(rs, g'') => Ok (r :: rs, g'')))
  end.
