(* What the link-state graph and its routing tables must do, in terms of
   announced links and walks.  Nothing here refers to the model. *)

From Coq Require Import NArith ZArith List Bool.
Import ListNotations.

(* Calls of graph_update_edge and graph_del_edge. *)
Inductive gop : Type :=
| Announce (s d : N)
| Withdraw (s d : N).

(* ---- Counting ---- *)

(* How often the link between two nodes is announced, in either
   direction. *)
Definition same_link (a b x y : N) : bool :=
  (N.eqb a x && N.eqb b y) || (N.eqb a y && N.eqb b x).

Definition counts : Type := N -> N -> Z.

Definition no_counts : counts := fun _ _ => 0%Z.

Definition add_count (c : counts) (a b : N) (d : Z) : counts :=
  fun x y => (if same_link a b x y then c x y + d else c x y)%Z.

(* The return value (true: 0, false: -1) and the next counts. *)
Definition count_step (c : counts) (o : gop) : bool * counts :=
  match o with
  | Announce s d => (true, add_count c s d 1)
  | Withdraw s d =>
      if Z.ltb 0 (c s d) then (true, add_count c s d (-1)) else (false, c)
  end.

Fixpoint count_run (c : counts) (l : list gop) : list bool * counts :=
  match l with
  | [] => ([], c)
  | o :: l' =>
      let (r, c') := count_step c o in
      let (rs, c'') := count_run c' l' in (r :: rs, c'')
  end.

(* The two end points differ. *)
Definition distinct_ends (o : gop) : Prop :=
  match o with Announce s d | Withdraw s d => s <> d end.

(* ---- Announcements in each direction ---- *)

(* The directed links announced: each is announced at most once at a
   time and withdrawn only after it was announced. *)
Definition pair_eqb (p q : N * N) : bool :=
  N.eqb (fst p) (fst q) && N.eqb (snd p) (snd q).

Fixpoint links_run (L : list (N * N)) (l : list gop) : option (list (N * N)) :=
  match l with
  | [] => Some L
  | Announce s d :: l' =>
      if N.eqb s d || existsb (pair_eqb (s, d)) L then None
      else links_run ((s, d) :: L) l'
  | Withdraw s d :: l' =>
      if existsb (pair_eqb (s, d)) L
      then links_run (filter (fun p => negb (pair_eqb (s, d) p)) L) l'
      else None
  end.

(* A link is usable when both ends announce it. *)
Definition usable (L : list (N * N)) (a b : N) : Prop :=
  In (a, b) L /\ In (b, a) L.

(* ---- Walks ---- *)

Section Walks.

  Variable link : N -> N -> Prop.

  Inductive walk : N -> N -> nat -> Prop :=
  | walk_nil : forall a, walk a a 0
  | walk_cons : forall a b c n, link a b -> walk b c n -> walk a c (S n).

  (* The number of hops of a shortest walk. *)
  Definition distance (a b : N) (n : nat) : Prop :=
    walk a b n /\ forall m, walk a b m -> n <= m.

  Definition reachable (a b : N) : Prop := exists n, walk a b n.

  (* A walk given by the nodes visited, source and destination
     included. *)
  Fixpoint path (a : N) (l : list N) : Prop :=
    match l with
    | [] => True
    | b :: l' => link a b /\ path b l'
    end.

End Walks.

(* ---- Forwarding ---- *)

(* next x d: the node to which node x sends a packet for d. *)
Fixpoint forward (next : N -> N -> option N) (d x : N) (hops : nat) : option N :=
  match hops with
  | O => Some x
  | S h =>
      match next x d with
      | Some y => forward next d y h
      | None => None
      end
  end.
