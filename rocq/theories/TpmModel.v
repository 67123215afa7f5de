(** Model of the thread pool that serves the requests of the daemons,
    src/lib/tpm.c, with the worker loops of src/irmd/main.c:1508-1612 and
    src/ipcpd/ipcp.c:640-782 as far as the pool sees them.

    Every access to the pool is under its mutex, so what happens between
    lock and unlock is one step.  Running out of memory shows only as fewer
    threads being started. *)
From Coq Require Import NArith List Bool Arith.
Import ListNotations.

(** Where a worker is.  Not in the pool's data: the pool sees [busy]. *)
Inductive phase :=
| Waiting   (* for a request *)
| Has       (* it took a request from the queue and has not yet told the pool *)
| Busy      (* between tpm_dec and tpm_inc *)
| Gone.     (* it ended *)

(* tpm.c:38-45 struct pthr_el *)
Record elt := Elt { thr : nat; kill : bool; busy : bool }.

(** Where the manager is in its loop (tpm.c:117-168). *)
Inductive mgr :=
| Top                    (* before line 127 *)
| Joining (stop : bool)  (* in the second loop of tpm_join (87-99); stop: called from line 130 *)
| JoinWait (stop : bool) (t : nat)  (* pthread_join without the mutex (95) *)
| Grow                   (* before line 137 *)
| MWait                  (* pthread_cond_timedwait (159) *)
| Exited.

(* tpm.c:53-69 struct tpm; size_t counters.  [ph], [cancelled] and [next] are
   the threads themselves: what they do, whether pthread_cancel was called
   for them, and the number of the next one. *)
Record st := St {
  pool : list elt; cur : N; wrk : N; running : bool; mg : mgr;
  ph : nat -> phase; cancelled : nat -> bool; next : nat
}.

Definition W64 : N := 2 ^ 64.
Definition add64 (a b : N) : N := ((a + b) mod W64)%N.
Definition sub64 (a b : N) : N := ((a + W64 - b mod W64) mod W64)%N.

Definition upd {A} (f : nat -> A) (t : nat) (v : A) : nat -> A :=
  fun u => if Nat.eqb u t then v else f u.

Inductive ev :=
| Request (t : nat)   (* a worker takes a request *)
| Bad (t : nat)       (* that turns out to be no message (main.c:1537-1541) *)
| Dec (t : nat)       (* tpm_dec *)
| Inc (t : nat)       (* tpm_inc: the request is answered *)
| Die (t : nat)       (* a cancelled worker ends, waiting or in the middle of a request *)
| Go (k : nat)        (* the manager goes on; where it starts threads, k are started *)
| Timeout | Signal    (* the manager's wait ends *)
| Stop.               (* tpm_stop *)

Section Pool.
Variables (min : N) (inc : nat).

(* tpm.c:253-267 tpm_pthr_el, 269-282 tpm_inc and 284-299 tpm_dec: mark the
   first element of the thread *)
Fixpoint mark (t : nat) (b : bool) (l : list elt) : option (list elt) :=
  match l with
  | [] => None
  | e :: l => if Nat.eqb (thr e) t then Some (Elt (thr e) (kill e) b :: l)
              else option_map (cons e) (mark t b l)
  end.

(* tpm.c:102-115 tpm_kill: the first element that is neither busy nor killed *)
Fixpoint kill_idle (l : list elt) : option (nat * list elt) :=
  match l with
  | [] => None
  | e :: l => if negb (busy e) && negb (kill e) then Some (thr e, Elt (thr e) true (busy e) :: l)
              else option_map (fun x => (fst x, e :: snd x)) (kill_idle l)
  end.

(* tpm.c:76-85, the first loop of tpm_join when the pool is stopped *)
Definition kill_all (l : list elt) : list elt := map (fun e => Elt (thr e) true (busy e)) l.
Definition alive (l : list elt) : list elt := filter (fun e => negb (kill e)) l.

(* tpm.c:87-99, the second loop: the next killed element leaves the list *)
Fixpoint first_killed (l : list elt) : option (nat * list elt) :=
  match l with
  | [] => None
  | e :: l => if kill e then Some (thr e, l)
              else option_map (fun x => (fst x, e :: snd x)) (first_killed l)
  end.

(* tpm.c:137-157: k new elements, each put first *)
Fixpoint fresh (n k : nat) : list elt :=
  match k with O => [] | S k => fresh (S n) k ++ [Elt n false false] end.

Definition set_mg (s : st) (m : mgr) : st :=
  St (pool s) (cur s) (wrk s) (running s) m (ph s) (cancelled s) (next s).
Definition set_ph (s : st) (t : nat) (p : phase) : st :=
  St (pool s) (cur s) (wrk s) (running s) (mg s) (upd (ph s) t p) (cancelled s) (next s).

(* tpm.c:117-168 tpmgr, one step of the manager *)
Definition manager (s : st) (k : nat) : option st :=
  match mg s with
  | Top =>
      if running s then Some (set_mg s (Joining false))
      else Some (St (kill_all (pool s))
                    (fold_left (fun c _ => sub64 c 1) (alive (pool s)) (cur s)) (wrk s) (running s)
                    (Joining true) (ph s)
                    (fun t => existsb (fun e => Nat.eqb (thr e) t) (alive (pool s)) || cancelled s t)
                    (next s))
  | Joining stop =>
      match first_killed (pool s) with
      | Some (t, l) => Some (St l (cur s) (wrk s) (running s) (JoinWait stop t) (ph s) (cancelled s) (next s))
      | None => Some (set_mg s (if stop then Exited else Grow))
      end
  | JoinWait stop t => match ph s t with Gone => Some (set_mg s (Joining stop)) | _ => None end
  | Grow =>
      if (sub64 (cur s) (wrk s) <? min)%N
      then if k <=? inc
           then Some (St (fresh (next s) k ++ pool s) (add64 (cur s) (N.of_nat k)) (wrk s) (running s) MWait
                         (fun t => if (next s <=? t) && (t <? next s + k) then Waiting else ph s t)
                         (cancelled s) (next s + k))
           else None
      else Some (set_mg s MWait)
  | MWait | Exited => None
  end.

Definition step (s : st) (e : ev) : option st :=
  match e with
  | Request t => match ph s t with Waiting => Some (set_ph s t Has) | _ => None end
  | Bad t => match ph s t with Has => Some (set_ph s t Waiting) | _ => None end
  | Dec t => match ph s t with
             | Has => let s := set_ph s t Busy in
                      match mark t true (pool s) with
                      | Some l => Some (St l (cur s) (add64 (wrk s) 1) (running s) (mg s) (ph s) (cancelled s) (next s))
                      | None => Some s
                      end
             | _ => None
             end
  | Inc t => match ph s t with
             | Busy => let s := set_ph s t Waiting in
                       match mark t false (pool s) with
                       | Some l => Some (St l (cur s) (sub64 (wrk s) 1) (running s) (mg s) (ph s) (cancelled s) (next s))
                       | None => Some s
                       end
             | _ => None
             end
  (* the functions a worker is cancelled in are pthread_cond_wait for a
     request, and pthread_cond_wait, read, write and close while it serves
     one; it does not tell the pool *)
  | Die t => if cancelled s t
             then match ph s t with Waiting | Busy => Some (set_ph s t Gone) | _ => None end
             else None
  | Go k => manager s k
  (* tpm.c:159-162 *)
  | Timeout => match mg s with
               | MWait =>
                   if (min <? sub64 (cur s) (wrk s))%N
                   then match kill_idle (pool s) with
                        | Some (t, l) => Some (St l (sub64 (cur s) 1) (wrk s) (running s) Top (ph s)
                                                  (upd (cancelled s) t true) (next s))
                        | None => Some (set_mg s Top)
                        end
                   else Some (set_mg s Top)
               | _ => None
               end
  | Signal => match mg s with MWait => Some (set_mg s Top) | _ => None end
  (* tpm.c:234-243; the caller then joins the manager *)
  | Stop => if running s
            then Some (St (pool s) (cur s) (wrk s) false (mg s) (ph s) (cancelled s) (next s))
            else None
  end.

(* tpm.c:170-216 tpm_create and 218-232 tpm_start *)
Definition init : st := St [] 0 0 true Top (fun _ => Gone) (fun _ => false) 0.

(** The state after a history, the latest event first. *)
Fixpoint run (h : list ev) : option st :=
  match h with
  | [] => Some init
  | e :: h => match run h with Some s => step s e | None => None end
  end.
End Pool.
