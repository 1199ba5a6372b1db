(** Integer powers: scicpp/core/units/maths.hpp (used by scicpp::pow<n>, core/maths.hpp:163-166, and by stats). *)
From Coq Require Import ZArith.
From Verif Require Import Base Spec.
Set Implicit Arguments.

Section P.
Context {T : Type}.
Variables (one : T) (mul : T -> T -> T).
(** units/maths.hpp:125-140: pow<n>(a) = p * p * (n % 2 == 0 ? T{1} : a) with p = pow<n / 2>(a), pow<0>(a) = T{1}.
    C++ division and remainder truncate towards zero, so for n < 0 the recursion runs through the same quotients and
    (n % 2 == 0) answers as for |n|: binary digits of |n|. *)
Fixpoint upow_pos (p : positive) (a : T) : T :=
  match p with
  | xH => mul (mul one one) a
  | xO q => let r := upow_pos q a in mul (mul r r) one
  | xI q => let r := upow_pos q a in mul (mul r r) a
  end.
Definition upow (n : Z) (a : T) : T :=
  match n with Z0 => one | Zpos p => upow_pos p a | Zneg p => upow_pos p a end.
End P.

(** the same recursion written with the C++ operators, to justify the binary-digit form *)
Lemma upow_unfold {T} (one : T) mul n a : n <> 0%Z ->
  upow one mul n a =
  mul (mul (upow one mul (Z.quot n 2) a) (upow one mul (Z.quot n 2) a))
      (if (Z.rem n 2 =? 0)%Z then one else a).
Proof.
  intros Hn.
  assert (E : (Z.rem n 2 =? 0)%Z = Z.even n).
  { rewrite Z.rem_eq, <- Zquot2_quot by lia. destruct n as [|[p|p|]|[p|p|]]; cbn [Z.quot2 Pos.div2 Z.even];
      first [apply Z.eqb_eq; lia | apply Z.eqb_neq; lia]. }
  rewrite E, <- Zquot2_quot. destruct n as [|[p|p|]|[p|p|]]; try congruence; reflexivity.
Qed.

Section Pr.
Context {T : Type} (one : T) (mul : T -> T -> T).
Hypothesis assoc : forall x y z, mul x (mul y z) = mul (mul x y) z.
Hypothesis one_l : forall x, mul one x = x.
Hypothesis one_r : forall x, mul x one = x.

Lemma rpow_add x m n : rpow one mul x (m + n) = mul (rpow one mul x m) (rpow one mul x n).
Proof. induction m as [|m IH]; simpl; [now rewrite one_l|]. rewrite IH. apply assoc. Qed.
Lemma rpow_comm x n : mul (rpow one mul x n) x = mul x (rpow one mul x n).
Proof. replace x with (rpow one mul x 1) at 2 3 by (simpl; apply one_r). rewrite <- !rpow_add. f_equal. lia. Qed.

Lemma upow_pos_spec p x : upow_pos one mul p x = rpow one mul x (Pos.to_nat p).
Proof.
  induction p as [p IH|p IH|]; cbn [upow_pos]; rewrite ?IH.
  - replace (Pos.to_nat p~1) with (S (Pos.to_nat p + Pos.to_nat p)) by lia. simpl. rewrite rpow_add.
    rewrite <- assoc, rpow_comm, assoc, rpow_comm, <- assoc. reflexivity.
  - replace (Pos.to_nat p~0) with (Pos.to_nat p + Pos.to_nat p) by lia. now rewrite rpow_add, one_r.
  - simpl. now rewrite one_l, one_l, one_r.
Qed.

Lemma upow_spec (n : Z) x : upow one mul n x = rpow one mul x (Z.to_nat (Z.abs n)).
Proof. destruct n as [|p|p]; simpl; [reflexivity|apply upow_pos_spec|apply upow_pos_spec]. Qed.
End Pr.
