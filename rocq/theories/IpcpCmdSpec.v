(** What C101 says about the commands of the IRMd to an IPCP. *)
From Coq Require Import NArith ZArith List Bool.
From Verif Require Import WireModel EnrollModel EnrollSpec IrmModel IrmSpec IpcpCmdModel.
Import ListNotations.
Local Open Scope N_scope.

(** Arguments the IRMd can pass. *)
Definition good_cmd (c : cmd) : Prop :=
  match c with
  | Bootstrap c => match c with Some c => good_conf c | None => True end
  | Enroll d => otxt d
  | Connect p d k q => int32 p /\ otxt d /\ otxt k /\ good_qos q
  | Disconnect p d k => int32 p /\ otxt d /\ otxt k
  | Reg _ | Unreg _ | Query _ => True
  | Join f _ | Alloc f _ _ => int32 (fid f) /\ int32 (n_pid f) /\ good_qos (fqs f)
  | AllocResp f r _ => int32 (fid f) /\ int32 (n_pid f) /\ int32 r
  | Dealloc i t => int32 i /\ (0 <= t < 2 ^ 31)%Z
  end.
Definition no_argument (c : cmd) : Prop := match c with Bootstrap None | Enroll None => True | _ => False end.
Definition is_join (c : cmd) : Prop := match c with Join _ _ => True | _ => False end.
Definition is_dealloc (c : cmd) : Prop := match c with Dealloc _ _ => True | _ => False end.
Definition hash_of (c : cmd) : option (list N) :=
  match c with Reg h | Unreg h | Query h | Join _ h | Alloc _ h _ => Some h | _ => None end.
(** The hash in the command, if any, is as long as the hashes of this IPCP. *)
Definition hash_fits (p : ipcp) (c : cmd) : Prop := match hash_of c with Some h => length h = hlen p | None => True end.

(** * What an IPCP has to do for a command *)
Definition number (c : cmd) : N :=
  match c with
  | Bootstrap _ => 1 | Enroll _ => 2 | Reg _ => 3 | Unreg _ => 4 | Query _ => 5 | Alloc _ _ _ => 6 | Join _ _ => 7
  | AllocResp _ _ _ => 8 | Dealloc _ _ => 9 | Connect _ _ _ _ => 10 | Disconnect _ _ _ => 11
  end.
(** The state it has to be in, if that matters. *)
Definition needs (c : cmd) : option state :=
  match c with
  | Bootstrap _ | Enroll _ => Some SInit
  | Query _ | Alloc _ _ _ | Join _ _ | AllocResp _ _ _ | Dealloc _ _ => Some SOper
  | _ => None
  end.
(** Where the descriptor of the flow comes from, if it takes one, and what is
    answered if there is none to be had. *)
Definition descriptor (c : cmd) : option (np1call * Z) :=
  match c with
  | Alloc f _ _ => Some (NAlloc (n_pid f) (fid f), -1005)%Z
  | Join f _ => Some (NAlloc (n_pid f) (fid f), -1)%Z
  | AllocResp f 0 _ => Some (NResp (fid f), -1)%Z
  | Dealloc i t => Some (NDealloc i t, -1)%Z
  | _ => None
  end.
Definition operation (c : cmd) (fd : Z) : option opcall :=
  match c with
  | Bootstrap (Some c) => Some (OBootstrap c)
  | Enroll (Some d) => Some (OEnroll (Some d))
  | Connect _ d k q => Some (OConnect d k q)
  | Disconnect _ d k => Some (ODisconnect d k)
  | Reg h => Some (OReg h) | Unreg h => Some (OUnreg h) | Query h => Some (OQuery h)
  | Alloc f h d => Some (OAlloc fd h (fqs f) d)
  | Join f h => Some (OJoin fd h (fqs f))
  | AllocResp _ r d => Some (OResp fd r d)
  | Dealloc _ _ => Some (ODealloc fd)
  | _ => None
  end.
(** What is done and what comes of it. *)
Inductive runs (p : ipcp) (c : cmd) : list act -> Z -> Prop :=
| NotThere : has p (number c) = false -> runs p c [] (-95)
| WrongState : forall s, has p (number c) = true -> needs c = Some s -> st p <> s -> runs p c [] (-1004)
| NoFd : forall n e, has p (number c) = true -> (forall s, needs c = Some s -> st p = s) ->
    descriptor c = Some (n, e) -> (np1 p n < 0)%Z -> runs p c [ANp1 n] e
| WithFd : forall n e o, has p (number c) = true -> (forall s, needs c = Some s -> st p = s) ->
    descriptor c = Some (n, e) -> (0 <= np1 p n)%Z -> operation c (np1 p n) = Some o -> runs p c [ANp1 n; AOp o] (op p o)
| NeedsNone : forall o, has p (number c) = true -> (forall s, needs c = Some s -> st p = s) ->
    descriptor c = None -> operation c (-1) = Some o -> runs p c [AOp o] (op p o).
(** The commands after which a layer is there, and what the IRMd is told of it. *)
Definition layer_of (p : ipcp) (c : cmd) : option (str * N) :=
  match c with
  | Bootstrap (Some c) => Some (lname c, hash_algo c)
  | Enroll d => Some (found p d)
  | _ => None
  end.
(** What the call returns if the result is [r]. *)
Definition heard (p : ipcp) (c : cmd) (r : Z) : ret :=
  match layer_of p c with
  | Some (n, h) => if (r =? 0)%Z then RetInfo n h else Ret r
  | None => Ret r
  end.
(** An IPCP whose functions return an int, and whose layers have names. *)
Definition good_ipcp (p : ipcp) : Prop :=
  (forall o, int32 (op p o)) /\ (forall d, name255 (fst (found p d)) /\ snd (found p d) < 2 ^ 32).

(** * The messages that end the IPCP *)
Definition breaks (p : ipcp) (m : ipcp_msg) : Prop :=
  let hash := length (match c_hash m with Some h => h | None => [] end) in
  match c_code m with
  | 1 => has p 1 = true /\ st p = SInit /\ match c_conf m with None => True | Some c => long_name c \/ part_missing c end
  | 3 | 4 | 5 => hash <> hlen p
  | 6 | 7 => hash <> hlen p \/ c_qos m = None
  | 10 => c_qos m = None
  | _ => False
  end.

(** The bytes of the strings and buffers in a command, each with 32 to spare. *)
Definition cmd_size (c : cmd) : nat :=
  match c with
  | Enroll a => osize a
  | Connect _ a b _ | Disconnect _ a b => osize a + osize b
  | Reg h | Unreg h | Query h | Join _ h => osize (Some h)
  | Alloc _ h d => osize (Some h) + osize (Some d)
  | AllocResp _ _ d => osize (Some d)
  | _ => 0
  end%nat.
Definition bytes_of (c : cmd) : list (list N) :=
  match c with
  | Enroll a => olist a
  | Connect _ a b _ | Disconnect _ a b => olist a ++ olist b
  | Reg h | Unreg h | Query h | Join _ h => [h]
  | Alloc _ h d => [h; d]
  | AllocResp _ _ d => [d]
  | _ => []
  end.
(** The call of the IRMd reports success. *)
Definition success (r : ret) : Prop := r = Ret 0 \/ exists n h, r = RetInfo n h.
