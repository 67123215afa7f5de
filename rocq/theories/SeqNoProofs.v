From Coq Require Import NArith ZArith Bool Lia ZifyBool.
From Verif Require Import SeqNoModel.
Open Scope Z_scope.

Lemma sub_wrap x y : u32_sub (x mod two32) (y mod two32) = (x - y) mod two32.
Proof. unfold u32_sub. rewrite <- Zminus_mod. reflexivity. Qed.

Lemma wrap_near d : - 2 ^ 31 <= d < 2 ^ 31 -> to_i32 (d mod two32) = d.
Proof.
  intros H. unfold to_i32, two32 in *.
  pose proof (Z.div_mod d (2 ^ 32)). pose proof (Z.mod_pos_bound d (2 ^ 32)).
  change (2 ^ 31) with 2147483648 in *. change (2 ^ 32) with 4294967296 in *.
  set (q := d / 4294967296) in *. set (m := d mod 4294967296) in *.
  destruct (m <? 2147483648) eqn:E; nia.
Qed.

Lemma before_true x y : Z.abs (x - y) < 2 ^ 31 ->
  before (x mod two32) (y mod two32) = (x <? y).
Proof. intros H. unfold before. rewrite sub_wrap, wrap_near; lia. Qed.

Lemma after_true x y : Z.abs (x - y) < 2 ^ 31 ->
  after (x mod two32) (y mod two32) = (x >? y).
Proof. intros H. unfold after. rewrite sub_wrap, wrap_near; lia. Qed.

Lemma after_before a b : after a b = before b a.
Proof. reflexivity. Qed.

Lemma trichotomy a b : 0 <= a < two32 -> 0 <= b < two32 -> (a - b) mod two32 <> 2 ^ 31 ->
  (before a b = true /\ after a b = false /\ a <> b) \/
  (before a b = false /\ after a b = true /\ a <> b) \/
  (before a b = false /\ after a b = false /\ a = b).
Proof.
  intros Ha Hb H. unfold before, after, u32_sub, to_i32.
  assert (E : a = b \/ a <> b) by lia. unfold two32 in *.
  change (2 ^ 32) with 4294967296 in *. change (2 ^ 31) with 2147483648 in *.
  pose proof (Z.div_mod (a - b) 4294967296). pose proof (Z.mod_pos_bound (a - b) 4294967296).
  pose proof (Z.div_mod (b - a) 4294967296). pose proof (Z.mod_pos_bound (b - a) 4294967296).
  set (q := (a - b) / 4294967296) in *. set (m := (a - b) mod 4294967296) in *.
  set (q' := (b - a) / 4294967296) in *. set (m' := (b - a) mod 4294967296) in *.
  destruct (m <? 2147483648) eqn:E1; destruct (m' <? 2147483648) eqn:E2; nia.
Qed.

Lemma half_distance a b : (a - b) mod two32 = 2 ^ 31 -> before a b = true /\ after a b = true.
Proof.
  intros H. assert (H' : (b - a) mod two32 = 2 ^ 31).
  { unfold two32 in *. change (2 ^ 32) with 4294967296 in *. change (2 ^ 31) with 2147483648 in *.
    pose proof (Z.div_mod (a - b) 4294967296). pose proof (Z.div_mod (b - a) 4294967296).
    pose proof (Z.mod_pos_bound (b - a) 4294967296). nia. }
  unfold before, after, u32_sub. rewrite H, H'. split; reflexivity.
Qed.
