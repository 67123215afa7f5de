(** Model of src/lib/btree.c.

    A node owns the children in its slots 0..used; the slots after that hold stale
    pointers, which the model does not represent: using one of them is [None].
    All slots of a leaf are NULL.  The array of keys is represented in full,
    because lookups read stale entries of it.  [None] also stands for a failed
    assertion and for an access outside an array.  Memory allocation succeeds, and
    freeing nodes is not modelled. *)
From Coq Require Import List Arith NArith Bool.
Import ListNotations.
Open Scope nat_scope.

Definition bind {A B} (o : option A) (f : A -> option B) : option B :=
  match o with Some x => f x | None => None end.
Notation "x <- o ; f" := (bind o (fun x => f)) (at level 100, o at next level, right associativity).
Definition guard {A} (b : bool) (x : option A) : option A := if b then x else None.

(** btree.c:35-38, struct key_val: a key and a pointer, 0 for NULL. *)
Notation kv := (N * N)%type.

(** btree.c:41-50, struct btnode; k is the same for all nodes of a tree. *)
Inductive node : Type := mk { used : nat; leaf : bool; kvs : list kv; chs : list node }.

(** Arrays: a store, and memmove of [n] elements between two arrays. *)
Definition aset {A} (l : list A) (i : nat) (x : A) : option (list A) :=
  guard (i <? length l) (Some (firstn i l ++ x :: skipn (S i) l)).
Definition acopy {A} (dst : list A) (d : nat) (src : list A) (s n : nat) : option (list A) :=
  guard ((d + n <=? length dst) && (s + n <=? length src))
        (Some (firstn d dst ++ firstn n (skipn s src) ++ skipn (d + n) dst)).
Definition amove {A} (l : list A) (d s n : nat) : option (list A) := acopy l d l s n.

(** btree.c:58-77, search_key; [lo] is lft + 1. *)
Fixpoint search_loop (fuel : nat) (arr : list kv) (lo rgt : nat) (key : N) : option nat :=
  if lo <? rgt then
    match fuel with
    | O => None
    | S f =>
        let mid := (lo + rgt - 1) / 2 in
        e <- nth_error arr mid;
        if N.eqb (fst e) key then Some mid
        else if N.ltb (fst e) key then search_loop f arr (S mid) rgt key
        else search_loop f arr lo mid key
    end
  else Some rgt.
Definition search_key (arr : list kv) (len : nat) (key : N) : option nat :=
  search_loop len arr 0 len key.

(** btree.c:79-115, btnode_create. *)
Definition btnode_create (k : nat) : node := mk 0 true (repeat (0, 0)%N k) [].

(** Result of btnode_insert: -1 or -EPERM, or 0 with *med and *split. *)
Inductive ires : Type := IFail | IDone (split : option (kv * node)).

(** btree.c:182-200: split a full node. *)
Definition split_node (k : nat) (n : node) : option (node * ires) :=
  if used n =? k then
    let mid := used n / 2 in
    let su := used n - mid - 1 in
    med <- nth_error (kvs n) mid;
    sk <- acopy (kvs (btnode_create k)) 0 (kvs n) (mid + 1) su;
    (* children mid + 1 .. mid + 1 + su are moved *)
    guard (leaf n || (mid + 1 + (su + 1) <=? length (chs n)))
    (Some (mk mid (leaf n) (kvs n) (firstn (mid + 1) (chs n)),
           IDone (Some (med, mk su (leaf n) sk (firstn (su + 1) (skipn (mid + 1) (chs n)))))))
  else Some (n, IDone None).

(** Replace child [p]. *)
Definition set_child (l : list node) (p : nat) (c : node) : list node :=
  firstn p l ++ c :: skipn (S p) l.

(** btree.c:137-203, btnode_insert; [fuel] bounds the depth of the recursion. *)
Fixpoint btnode_insert (fuel k : nat) (n : node) (x : kv) : option (node * ires) :=
  match fuel with
  | O => None
  | S f =>
    p <- search_key (kvs n) (used n) (fst x);
    dup <- (if p <? used n then e <- nth_error (kvs n) p; Some (N.eqb (fst e) (fst x)) else Some false);
    if (dup : bool) then Some (n, IFail)
    else guard (p <? k)                                          (* assert(p < node->k) *)
      (if leaf n then
         ks1 <- amove (kvs n) (p + 1) p (used n - p);
         ks2 <- aset ks1 p x;
         split_node k (mk (S (used n)) true ks2 (chs n))
       else
         c <- nth_error (chs n) p;
         r <- btnode_insert f k c x;
         let '(c', ir) := r in
         let n1 := mk (used n) false (kvs n) (set_child (chs n) p c') in
         match ir with
         | IFail => Some (n1, IFail)
         | IDone None => split_node k n1
         | IDone (Some (m, rgt)) =>
             ks1 <- amove (kvs n1) (p + 1) p (used n - p);
             ks2 <- aset ks1 p m;
             (* children p + 1 .. used move up by one: slot used + 1 must exist *)
             guard (used n + 1 <=? k)
             (split_node k (mk (S (used n)) false ks2
                (firstn (S p) (chs n1) ++ rgt :: skipn (S p) (chs n1))))
         end)
  end.

(** btree.c:206-235, merge child i with child i + 1. *)
Definition merge (k : nat) (n : node) (i : nat) : option node :=
  chld <- nth_error (chs n) i;
  next <- nth_error (chs n) (i + 1);
  sep <- nth_error (kvs n) i;
  guard (1 <=? k / 2)
  (ck1 <- aset (kvs chld) (k / 2 - 1) sep;
   ck2 <- acopy ck1 (k / 2) (kvs next) 0 (used next);
   (* children k/2 .. k/2 + next->used are overwritten; those before must be owned *)
   cc <- (if leaf chld then Some (chs chld)
          else guard ((k / 2 + (used next + 1) <=? k + 1) && (k / 2 <=? length (chs chld)) &&
                      (used next + 1 <=? length (chs next)))
                 (Some (firstn (k / 2) (chs chld) ++ firstn (used next + 1) (chs next))));
   nk <- amove (kvs n) i (i + 1) (used n - i - 1);
   (* children i + 2 .. used + 1 move down: slot used + 1 must exist *)
   guard (used n + 1 <=? k)
   (Some (mk (used n - 1) (leaf n) nk
        (firstn i (chs n) ++ mk (used chld + used next + 1) (leaf chld) ck2 cc
           :: skipn (i + 2) (chs n))))).

(** btree.c:242-267: feed child i from its previous sibling. *)
Definition feed_prev (k : nat) (n : node) (i : nat) (prev chld : node) : option node :=
  ck1 <- amove (kvs chld) 1 0 (used chld);
  sep <- nth_error (kvs n) (i - 1);
  ck2 <- aset ck1 0 sep;
  (* a leaf gets the NULL pointer of another leaf in its slot 0 *)
  cc <- (if leaf chld then Some (chs chld)
         else guard (1 + (used chld + 1) <=? k + 1)
                (c <- nth_error (chs prev) (used prev); Some (c :: chs chld)));
  guard (1 <=? used prev)
  (last <- nth_error (kvs prev) (used prev - 1);
   nk <- aset (kvs n) (i - 1) last;
   Some (mk (used n) (leaf n) nk
      (firstn (i - 1) (chs n) ++
       mk (used prev - 1) (leaf prev) (kvs prev)
          (if leaf chld then chs prev else firstn (used prev) (chs prev)) ::
       mk (used chld + 1) (leaf chld) ck2 cc :: skipn (i + 1) (chs n)))).

(** btree.c:269-293: feed child i from its next sibling. *)
Definition feed_next (k : nat) (n : node) (i : nat) (chld next : node) : option node :=
  sep <- nth_error (kvs n) i;
  ck <- aset (kvs chld) (used chld) sep;
  cc <- (if leaf chld then Some (chs chld)
         else guard (used chld + 1 <? k + 1)
                (c <- nth_error (chs next) 0; Some (firstn (used chld + 1) (chs chld) ++ [c])));
  first <- nth_error (kvs next) 0;
  nk <- aset (kvs n) i first;
  xk <- amove (kvs next) 0 1 (used next);
  let xc := if leaf next then chs next else skipn 1 (chs next) in
  guard (1 <=? used next)
  (Some (mk (used n) (leaf n) nk
      (firstn i (chs n) ++ mk (used chld + 1) (leaf chld) ck cc ::
       mk (used next - 1) (leaf next) xk xc :: skipn (i + 2) (chs n)))).

(** btree.c:238-300, fill. *)
Definition fill (k : nat) (n : node) (i : nat) : option node :=
  chld <- nth_error (chs n) i;
  fp <- (if i =? 0 then Some None
         else prev <- nth_error (chs n) (i - 1);
              Some (if k / 2 <=? used prev then Some prev else None));
  match fp with
  | Some prev => feed_prev k n i prev chld
  | None =>
    fx <- (if i =? used n then Some None
           else next <- nth_error (chs n) (i + 1);
                Some (if k / 2 <=? used next then Some next else None));
    match fx with
    | Some next => feed_next k n i chld next
    | None =>
        if negb (i =? used n) then merge k n i
        else if i =? 0 then None               (* merge(node, SIZE_MAX) *)
        else merge k n (i - 1)
    end
  end.

(** btree.c:302-310 and 312-319, btnode_pred and btnode_succ, from the child. *)
Fixpoint rightmost (fuel : nat) (n : node) : option kv :=
  match fuel with
  | O => None
  | S f => if leaf n then guard (1 <=? used n) (nth_error (kvs n) (used n - 1))
           else c <- nth_error (chs n) (used n); rightmost f c
  end.
Fixpoint leftmost (fuel : nat) (n : node) : option kv :=
  match fuel with
  | O => None
  | S f => if leaf n then nth_error (kvs n) 0
           else c <- nth_error (chs n) 0; leftmost f c
  end.

(** btree.c:321-367, btnode_delete: the node and whether it returns 0.  [b1], [b2]
    say whether a child is well enough filled. *)
Fixpoint btnode_delete (fuel k : nat) (n : node) (key : N) : option (node * bool) :=
  match fuel with
  | O => None
  | S f =>
    i <- search_key (kvs n) (used n) key;
    hit <- (if i <? used n then e <- nth_error (kvs n) i; Some (N.eqb (fst e) key) else Some false);
    if (hit : bool) then
      if leaf n then
        ks <- amove (kvs n) i (i + 1) (used n - i - 1);
        Some (mk (used n - 1) true ks (chs n), true)
      else
        c <- nth_error (chs n) i;
        if k / 2 <=? used c then
          x <- rightmost f c;
          nk <- aset (kvs n) i x;
          r <- btnode_delete f k c (fst x);
          Some (mk (used n) false nk (set_child (chs n) i (fst r)), snd r)
        else
          d <- nth_error (chs n) (i + 1);
          if k / 2 <=? used d then
            x <- leftmost f d;
            nk <- aset (kvs n) i x;
            r <- btnode_delete f k d (fst x);
            Some (mk (used n) false nk (set_child (chs n) (i + 1) (fst r)), snd r)
          else
            n1 <- merge k n i;
            btnode_delete f k n1 key
    else if leaf n then Some (n, false)
    else
      c <- nth_error (chs n) i;
      n1 <- (if used c <? k / 2 then fill k n i else Some n);
      let j := if (i =? used n) && (used n1 <? i) then i - 1 else i in
      d <- nth_error (chs n1) j;
      r <- btnode_delete f k d key;
      Some (mk (used n1) (leaf n1) (kvs n1) (set_child (chs n1) j (fst r)), snd r)
  end.

(** Depth of a tree, for the fuel. *)
Fixpoint depth (n : node) : nat :=
  S ((fix go l := match l with [] => 0 | c :: t => Nat.max (depth c) (go t) end) (chs n)).

(** btree.c:53-56, struct btree; btree.c:369-385, btree_create accepts the order. *)
Record tree : Type := mkt { root : option node; order : nat }.
Definition btree_create (k : nat) : tree := mkt None k.
Definition order_ok (k : nat) : bool := (1 <=? k) && (N.leb (N.of_nat k) (2 ^ 20)).

(** btree.c:397-446, btree_insert: whether it returns 0. *)
Definition btree_insert (t : tree) (key val : N) : option (tree * bool) :=
  if N.eqb val 0 then Some (t, false)
  else
    let k := order t in
    let rt := match root t with Some n => n | None => btnode_create k end in
    r <- btnode_insert (depth rt) k rt (key, val);
    match r with
    | (rt', IFail) => Some (mkt (Some rt') k, false)
    | (rt', IDone None) => Some (mkt (Some rt') k, true)
    | (rt', IDone (Some (med, rgt))) =>
        (* the root's contents move to a new node *)
        lk <- acopy (kvs (btnode_create k)) 0 (kvs rt') 0 (used rt');
        rk <- aset (kvs rt') 0 med;
        Some (mkt (Some (mk 1 false rk [mk (used rt') (leaf rt') lk (chs rt'); rgt])) k, true)
    end.

(** btree.c:448-474, btree_remove: whether it returns 0. *)
Definition btree_remove (t : tree) (key : N) : option (tree * bool) :=
  match root t with
  | None => Some (t, true)
  | Some rt =>
    r <- btnode_delete (2 * depth rt) (order t) rt key;
    let '(rt', ok) := r in
    if negb ok then Some (mkt (Some rt') (order t), false)
    else if used rt' =? 0 then
      if leaf rt' then Some (mkt None (order t), true)
      else c <- nth_error (chs rt') 0; Some (mkt (Some c) (order t), true)
    else Some (mkt (Some rt') (order t), true)
  end.

(** btree.c:476-492, btnode_search: 0 for NULL. *)
Fixpoint btnode_search (fuel : nat) (n : node) (key : N) : option N :=
  match fuel with
  | O => None
  | S f =>
    i <- search_key (kvs n) (used n) key;
    e <- nth_error (kvs n) i;
    if N.eqb (fst e) key then Some (snd e)
    else if leaf n then Some 0%N                (* node->children[i] is NULL *)
    else c <- nth_error (chs n) i; btnode_search f c key
  end.
(** btree.c:494-502, btree_search. *)
Definition btree_search (t : tree) (key : N) : option N :=
  match root t with None => Some 0%N | Some rt => btnode_search (depth rt) rt key end.

(** The entries in the tree, in order. *)
Fixpoint flat (ks : list kv) (es : list (list kv)) : list kv :=
  match es with
  | [] => ks
  | e :: t => e ++ match ks with [] => [] | k :: ks' => k :: flat ks' t end
  end.
Fixpoint elems (n : node) : list kv := flat (firstn (used n) (kvs n)) (map elems (chs n)).
Definition contents (t : tree) : list kv :=
  match root t with None => [] | Some n => elems n end.

(** Histories. *)
Inductive op : Type := Insert (key val : N) | Remove (key : N) | Search (key : N).
Inductive res : Type := RInt (ok : bool) | RVal (v : N).
Definition apply (t : tree) (o : op) : option (tree * res) :=
  match o with
  | Insert key val => r <- btree_insert t key val; Some (fst r, RInt (snd r))
  | Remove key => r <- btree_remove t key; Some (fst r, RInt (snd r))
  | Search key => v <- btree_search t key; Some (t, RVal v)
  end.
Fixpoint run (t : tree) (ops : list op) : option (tree * list res) :=
  match ops with
  | [] => Some (t, [])
  | o :: r => x <- apply t o; y <- run (fst x) r; Some (fst y, snd x :: snd y)
  end.
