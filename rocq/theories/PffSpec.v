(** Histories of the forwarding policies, recorded by the calls' arguments and
    results only: [given a] is the next-hop list of the last successful add or
    update for address [a], if it has not been deleted or flushed since. *)
From Coq Require Import List NArith ZArith Bool.
From Verif Require Import PftModel PffModel.
Import ListNotations.
Open Scope Z_scope.

Definition table := N -> option (list Z).
Definition tset (g : table) (a : N) (v : option (list Z)) : table :=
  fun x => if (x =? a)%N then v else g x.

(** simple.c *)
Inductive simple_reach : pft hops -> table -> Prop :=
| sr_create p : pff_create = Some p -> simple_reach p (fun _ => None)
| sr_add p g a l p' r : simple_reach p g -> simple_add p a l = Some (p', r) ->
    simple_reach p' (if r =? 0 then tset g a (Some l) else g)
| sr_update p g a l p' r : simple_reach p g -> simple_update p a l = Some (p', r) ->
    simple_reach p' (if r =? 0 then tset g a (Some l) else g)
| sr_del p g a p' r : simple_reach p g -> simple_del p a = Some (p', r) ->
    simple_reach p' (if r =? 0 then tset g a None else g)
| sr_flush p g : simple_reach p g -> simple_reach (pft_flush p) (fun _ => None).

(** multipath.c, with the packets sent to each address since its entry was
    made. *)
Inductive mp_reach : pft hops -> table -> (N -> list Z) -> Prop :=
| mr_create p : pff_create = Some p -> mp_reach p (fun _ => None) (fun _ => [])
| mr_add p g sent a l p' r : mp_reach p g sent -> mp_add p a l = Some (p', r) ->
    mp_reach p' (if r =? 0 then tset g a (Some l) else g)
                (if r =? 0 then fun x => if (x =? a)%N then [] else sent x else sent)
| mr_update p g sent a l p' r : mp_reach p g sent -> mp_update p a l = Some (p', r) ->
    mp_reach p' (if r =? 0 then tset g a (Some l) else g)
                (if r =? 0 then fun x => if (x =? a)%N then [] else sent x else sent)
| mr_del p g sent a p' r : mp_reach p g sent -> simple_del p a = Some (p', r) ->
    mp_reach p' (if r =? 0 then tset g a None else g)
                (if r =? 0 then fun x => if (x =? a)%N then [] else sent x else sent)
| mr_flush p g sent : mp_reach p g sent -> mp_reach (pft_flush p) (fun _ => None) (fun _ => [])
| mr_nhop p g sent a p' fd : mp_reach p g sent -> mp_nhop p a = Some (p', fd) ->
    mp_reach p' g (fun x => if (x =? a)%N && match g a with Some _ => true | None => false end
                            then sent x ++ [fd] else sent x).

(** alternate.c; [dn] lists the interfaces reported down more often than up. *)
Inductive alt_reach : alt -> table -> list Z -> Prop :=
| ar_create s : alt_create = Some s -> alt_reach s (fun _ => None) []
| ar_add s g dn a l s' r : alt_reach s g dn -> alt_add s a l = Some (s', r) ->
    alt_reach s' (if r =? 0 then tset g a (Some l) else g) dn
| ar_update s g dn a l s' r : alt_reach s g dn -> alt_update s a l = Some (s', r) ->
    alt_reach s' (if r =? 0 then tset g a (Some l) else g) dn
| ar_del s g dn a s' r : alt_reach s g dn -> alt_del s a = Some (s', r) ->
    alt_reach s' (if r =? 0 then tset g a None else g) dn
| ar_flush s g dn : alt_reach s g dn -> alt_reach (alt_flush s) (fun _ => None) []
| ar_down s g dn fd s' r : alt_reach s g dn -> alt_change s fd false = Some (s', r) ->
    alt_reach s' g (fd :: dn)
| ar_up s g dn fd s' r : alt_reach s g dn -> alt_change s fd true = Some (s', r) ->
    alt_reach s' g (remove1 Z.eqb fd dn).
