(** Models of the packet forwarding policies over the forwarding table:
    src/ipcpd/unicast/pff/simple.c, multipath.c and alternate.c.

    Every function runs under the policy's rwlock, so each is one step.
    Allocation failure is not modelled.  [None] is undefined behaviour: a failed
    assert or an access outside an allocated block. *)

From Coq Require Import List NArith ZArith Bool.
From Verif Require Import PftModel.
Import ListNotations.
Open Scope Z_scope.

(** What pft stores for a destination: the malloc'ed block of ints and len. *)
Record hops : Type := mk_hops { blk : list Z; vlen : nat }.

(** ** simple.c *)

(** simple.c:96-121, simple_pff_add. *)
Definition simple_add (p : pft hops) (addr : N) (fds : list Z) : option (pft hops * Z) :=
  match fds with
  | [] => None
  | fd :: _ =>
      match pft_insert p addr (mk_hops [fd] 1) with
      | None => None
      | Some (p', r) => if r =? 0 then Some (p', 0) else Some (p', -1)
      end
  end.

(** simple.c:123-153, simple_pff_update. *)
Definition simple_update (p : pft hops) (addr : N) (fds : list Z) : option (pft hops * Z) :=
  match fds with
  | [] => None
  | fd :: _ =>
      match pft_delete p addr with
      | None => None
      | Some (p1, r) =>
          if negb (r =? 0) then Some (p1, -1)
          else match pft_insert p1 addr (mk_hops [fd] 1) with
               | None => None
               | Some (p2, r2) => if r2 =? 0 then Some (p2, 0) else Some (p2, -1)
               end
      end
  end.

(** simple.c:155-164, simple_pff_del; also multipath.c:155-164. *)
Definition simple_del (p : pft hops) (addr : N) : option (pft hops * Z) :=
  match pft_delete p addr with
  | None => None
  | Some (p', r) => if r =? 0 then Some (p', 0) else Some (p', -1)
  end.

(** simple.c:173-190, simple_pff_nhop. *)
Definition simple_nhop (p : pft hops) (addr : N) : option Z :=
  match pft_lookup p addr with
  | None => None
  | Some None => Some (-1)
  | Some (Some v) => nth_error (blk v) 0
  end.

(** ** multipath.c *)

(** multipath.c:100-123, multipath_pff_add. *)
Definition mp_add (p : pft hops) (addr : N) (fds : list Z) : option (pft hops * Z) :=
  match fds with
  | [] => None
  | _ => match pft_insert p addr (mk_hops fds (length fds)) with
         | None => None
         | Some (p', r) => if r =? 0 then Some (p', 0) else Some (p', -1)
         end
  end.

(** multipath.c:125-153, multipath_pff_update: allocates room for one int and
    copies len of them. *)
Definition mp_update (p : pft hops) (addr : N) (fds : list Z) : option (pft hops * Z) :=
  match fds with
  | [fd] =>
      match pft_delete p addr with
      | None => None
      | Some (p1, r) =>
          if negb (r =? 0) then Some (p1, -1)
          else match pft_insert p1 addr (mk_hops [fd] 1) with
               | None => None
               | Some (p2, r2) => if r2 =? 0 then Some (p2, 0) else Some (p2, -1)
               end
      end
  | _ => None    (* len = 0: assert; len > 1: heap overflow *)
  end.

(** multipath.c:193-195: rotate the first len elements left. *)
Definition rotate (v : hops) : hops :=
  match firstn (vlen v) (blk v) with
  | [] => v
  | fd :: t => mk_hops (t ++ [fd] ++ skipn (vlen v) (blk v)) (vlen v)
  end.

(** multipath.c:173-200, multipath_pff_nhop. *)
Definition mp_nhop (p : pft hops) (addr : N) : option (pft hops * Z) :=
  match pft_lookup p addr with
  | None => None
  | Some None => Some (p, -1)
  | Some (Some v) =>
      match nth_error (blk v) 0 with
      | None => None
      | Some fd =>
          if Nat.eqb (vlen v) 0 then None
          else match pft_modify p addr rotate with
               | None => None
               | Some p' => Some (p', fd)
               end
      end
  end.

(** ** alternate.c *)

(** alternate.c:47-55, struct pff_i. *)
Record alt : Type := mk_alt {
  apft       : pft hops;
  addrs      : list N;
  nhops_down : list Z
}.

(** alternate.c:86-100, del_addr: removes the first matching element. *)
Fixpoint remove1 {A} (eqb : A -> A -> bool) (x : A) (l : list A) : list A :=
  match l with
  | [] => []
  | y :: t => if eqb y x then t else y :: remove1 eqb x t
  end.

(** alternate.c:160-172, nhops_down_has. *)
Definition nhops_down_has (down : list Z) (fd : Z) : bool := existsb (fun e => e =? fd) down.

(** alternate.c:174-201, add_to_pft: the block has one element more than len,
    the primary hop again. *)
Definition add_to_pft (p : pft hops) (addr : N) (fds : list Z) : option (pft hops * Z) :=
  match fds with
  | [] => None
  | primary :: _ =>
      match pft_insert p addr (mk_hops (fds ++ [primary]) (length fds)) with
      | None => None
      | Some (p', r) => if r =? 0 then Some (p', 0) else Some (p', -1)
      end
  end.

(** alternate.c:252-269, alternate_pff_add. *)
Definition alt_add (s : alt) (addr : N) (fds : list Z) : option (alt * Z) :=
  match add_to_pft (apft s) addr fds with
  | None => None
  | Some (p, r) =>
      if r =? 0 then Some (mk_alt p (addr :: addrs s) (nhops_down s), 0)
      else Some (mk_alt p (addrs s) (nhops_down s), -1)
  end.

(** alternate.c:271-286, alternate_pff_update. *)
Definition alt_update (s : alt) (addr : N) (fds : list Z) : option (alt * Z) :=
  match fds with
  | [] => None
  | _ =>
      match pft_delete (apft s) addr with
      | None => None
      | Some (p, r) =>
          if negb (r =? 0) then Some (mk_alt p (addrs s) (nhops_down s), -1)
          else match add_to_pft p addr fds with
               | None => None
               | Some (p', r') =>
                   Some (mk_alt p' (addrs s) (nhops_down s), if r' =? 0 then 0 else -1)
               end
      end
  end.

(** alternate.c:288-299, alternate_pff_del. *)
Definition alt_del (s : alt) (addr : N) : option (alt * Z) :=
  match pft_delete (apft s) addr with
  | None => None
  | Some (p, r) =>
      Some (mk_alt p (remove1 N.eqb addr (addrs s)) (nhops_down s), if r =? 0 then 0 else -1)
  end.

(** alternate.c:301-310, alternate_pff_flush. *)
Definition alt_flush (s : alt) : alt := mk_alt (pft_flush (apft s)) [] [].

(** alternate.c:312-333, alternate_pff_nhop. *)
Definition alt_nhop (s : alt) (addr : N) : option Z := simple_nhop (apft s) addr.

(** tmp = fds[0]; fds[0] = fds[i]; fds[i] = tmp. *)
Definition swap0 (l : list Z) (i : nat) : option (list Z) :=
  match nth_error l 0, nth_error l i with
  | Some a, Some b => Some (upd (upd l 0 b) i a)
  | _, _ => None
  end.

(** The loops [for (i = from; i < len; i++)] with the test [f fds[i]]: swap with
    the first match, if any. *)
Fixpoint swap_first (l : list Z) (f : Z -> bool) (i n : nat) : option (list Z) :=
  match n with
  | O => Some l
  | S n' => match nth_error l i with
            | None => None
            | Some x => if f x then swap0 l i else swap_first l f (S i) n'
            end
  end.

(** alternate.c:368-380: an interface came up. *)
Definition switch_up (fd : Z) (v : hops) : option hops :=
  match nth_error (blk v) (vlen v), nth_error (blk v) 0 with
  | Some prim, Some cur =>
      if (prim =? fd) && negb (cur =? fd)
      then option_map (fun l => mk_hops l (vlen v))
             (swap_first (blk v) (fun x => x =? fd) 0 (vlen v))
      else Some v
  | _, _ => None
  end.

(** alternate.c:381-394: an interface went down. *)
Definition switch_down (down : list Z) (fd : Z) (v : hops) : option hops :=
  match nth_error (blk v) 0 with
  | Some cur =>
      if cur =? fd
      then option_map (fun l => mk_hops l (vlen v))
             (swap_first (blk v) (fun x => negb (nhops_down_has down x)) 1 (vlen v - 1))
      else Some v
  | None => None
  end.

(** alternate.c:361-395: the loop over the addresses. *)
Fixpoint switch_all (sw : hops -> option hops) (p : pft hops) (l : list N) : option (pft hops * Z) :=
  match l with
  | [] => Some (p, 0)
  | a :: t =>
      match pft_lookup p a with
      | None => None
      | Some None => Some (p, -1)
      | Some (Some v) =>
          match sw v with
          | None => None
          | Some v' => match pft_modify p a (fun _ => v') with
                       | None => None
                       | Some p' => switch_all sw p' t
                       end
          end
      end
  end.

(** alternate.c:335-400, alternate_flow_state_change. *)
Definition alt_change (s : alt) (fd : Z) (up : bool) : option (alt * Z) :=
  if up then
    if nhops_down_has (nhops_down s) fd then
      let down := remove1 Z.eqb fd (nhops_down s) in
      match switch_all (switch_up fd) (apft s) (addrs s) with
      | None => None
      | Some (p, r) => Some (mk_alt p (addrs s) down, r)
      end
    else Some (s, -1)
  else
    let down := fd :: nhops_down s in
    match switch_all (switch_down down fd) (apft s) (addrs s) with
    | None => None
    | Some (p, r) => Some (mk_alt p (addrs s) down, r)
    end.

(** alternate.c:202-229 with PFT_SIZE (1 << 12), hash_key false. *)
Definition PFT_SIZE : N := 4096.
Definition pff_create : option (pft hops) := pft_create PFT_SIZE None.
Definition alt_create : option alt := option_map (fun p => mk_alt p [] []) pff_create.
