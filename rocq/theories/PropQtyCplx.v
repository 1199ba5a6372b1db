(** C108: complex quantities. *)
From Verif Require Import Base Arith ArithFacts ArithFacts2 ArithNewton ArithValue Quantity QuantityMaths QuantityFacts QuantityInt
  UnitsSpec DimFacts DimFacts2 DimFacts3 PropUnits PropUnits2 CplxR QuantityCplx.
From Coq Require Import ZArith QArith Lia List Bool Reals.
From Coq Require Import Lra.
Open Scope nat_scope.

(** ** Specification: the physical value (a complex number of base units) and the exponents of an operand *)
Definition cphysical (p : operand) : cx :=
  match p with
  | Num x => (x, 0%R)
  | CNum z => z
  | Qty u x => (physical u x, 0%R)
  | CQty u z => (physical u (fst z), physical u (snd z))
  end.
Definition unit_of (p : operand) : option uty := match p with Qty u _ | CQty u _ => Some u | _ => None end.
(** the unit is well formed and has no offset *)
Definition plain_operand (p : operand) : Prop := match unit_of p with Some u => unit_ok u /\ u_off u = Ratio 0 1 | None => True end.
(** dimensional analysis: numbers have no dimension *)
Definition operand_dim (fuel : nat) (p : operand) (e : expo) : Prop :=
  match unit_of p with Some u => dim_of fuel true u e | None => forall i, (e i == 0)%Q end.

(** ** Proofs *)
Lemma phys0 u v : u_off u = Ratio 0 1 -> physical u v = (rr_val (u_scale u) * v)%R.
Proof. intros H. change (physical u v) with (rr_val (u_scale u) * v + ratio_val (u_off u))%R. rewrite H. change (Ratio 0 1) with zero_ratio. rewrite ratio_val_zero. ring. Qed.
Lemma xdiv_spec a b : b <> x0 -> xmul (xdiv a b) b = a.
Proof.
  intros H. assert (N : xnorm2 b <> 0%R) by (intros Z; apply H; now apply xnorm2_zero). destruct a as [a1 a2], b as [b1 b2]. unfold xdiv, xmul, xnorm2 in *. cbn [fst snd] in *.
  f_equal; field; exact N.
Qed.
Definition ok0 (p : operand) (u : uty) : Prop := unit_ok u /\ u_off u = Ratio 0 1.
Lemma mul0 fuel a b c : unit_ok a -> unit_ok b -> ty_mul fuel a b = Some c -> u_off c = Ratio 0 1 /\ unit_ok c /\ rr_val (u_scale c) = (rr_val (u_scale a) * rr_val (u_scale b))%R.
Proof. intros A B E. destruct (ty_mul_val fuel A B E) as (W & _ & O & _ & V). split; [exact O|]. split; [exact W|exact V]. Qed.
Lemma div0 fuel a b c : unit_ok a -> unit_ok b -> ty_div fuel a b = Some c -> u_off c = Ratio 0 1 /\ unit_ok c /\ rr_val (u_scale c) = (rr_val (u_scale a) / rr_val (u_scale b))%R.
Proof. intros A B E. destruct (ty_div_val fuel A B E) as (W & _ & O & _ & V). split; [exact O|]. split; [exact W|exact V]. Qed.
Lemma inv0 fuel a c : unit_ok a -> ty_inv fuel a = Some c -> u_off c = Ratio 0 1 /\ unit_ok c /\ rr_val (u_scale c) = (/ rr_val (u_scale a))%R.
Proof. intros A E. destruct (ty_inv_val fuel A E) as (W & O & _ & V). split; [exact O|]. split; [exact W|exact V]. Qed.

Lemma c_mul_phys fuel p q r : plain_operand p -> plain_operand q -> c_mul fuel p q = Some r -> plain_operand r /\ cphysical r = xmul (cphysical p) (cphysical q).
Proof.
  intros P Q E. destruct p as [x|[z1 z2]|a x|a [z1 z2]], q as [y|[w1 w2]|b y|b [w1 w2]]; cbn [c_mul] in E; try discriminate E;
    unfold plain_operand in *; cbn [unit_of] in *;
    try (destruct (ty_mul fuel _ _) as [c|] eqn:M in E; [|discriminate E]; cbn [typed] in E); injection E as <-; cbn [cphysical unit_of fst snd].
  - destruct Q as [Wb Ob]. split; [tauto|]. rewrite !(phys0 _ _ Ob). unfold xmul, xre. cbn [fst snd]. f_equal; ring.
  - destruct Q as [Wb Ob]. split; [tauto|]. rewrite !(phys0 _ _ Ob). unfold xmul, xre. cbn [fst snd]. f_equal; ring.
  - destruct P as [Wa Oa], Q as [Wb Ob]. destruct (mul0 _ _ _ _ Wa Wb M) as (Oc & Wc & V). split; [tauto|]. rewrite !(phys0 _ _ Oc), !(phys0 _ _ Ob), !(phys0 _ _ Oa), V. unfold xmul, xre. cbn [fst snd]. f_equal; ring.
  - destruct P as [Wa Oa]. split; [tauto|]. rewrite !(phys0 _ _ Oa). unfold xmul, xre. cbn [fst snd]. f_equal; ring.
  - destruct P as [Wa Oa]. split; [tauto|]. rewrite !(phys0 _ _ Oa). unfold xmul, xre. cbn [fst snd]. f_equal; ring.
  - destruct P as [Wa Oa], Q as [Wb Ob]. destruct (mul0 _ _ _ _ Wb Wa M) as (Oc & Wc & V). split; [tauto|]. rewrite !(phys0 _ _ Oc), !(phys0 _ _ Ob), !(phys0 _ _ Oa), V. unfold xmul, xre. cbn [fst snd]. f_equal; ring.
  - destruct P as [Wa Oa], Q as [Wb Ob]. destruct (mul0 _ _ _ _ Wa Wb M) as (Oc & Wc & V). split; [tauto|]. rewrite !(phys0 _ _ Oc), !(phys0 _ _ Ob), !(phys0 _ _ Oa), V. unfold xmul, xre. cbn [fst snd]. f_equal; ring.
Qed.
Lemma xnz w1 w2 : (w1, w2) <> x0 <-> (w1 * w1 + w2 * w2 <> 0)%R.
Proof.
  split; intros H C.
  - apply H. apply xnorm2_zero. exact C.
  - apply H. injection C as -> ->. ring.
Qed.
Lemma c_div_phys fuel p q r : plain_operand p -> plain_operand q -> cphysical q <> x0 -> c_div fuel p q = Some r ->
  plain_operand r /\ xmul (cphysical r) (cphysical q) = cphysical p.
Proof.
  intros P Q NZ E.
  assert (QN : forall b y, unit_ok b -> u_off b = Ratio 0 1 -> (physical b y, 0%R) <> x0 -> y <> 0%R).
  { intros b y W O H C. apply H. rewrite (phys0 _ _ O), C. unfold x0. f_equal. ring. }
  assert (QC : forall b w1 w2, unit_ok b -> u_off b = Ratio 0 1 -> (physical b w1, physical b w2) <> x0 -> (w1 * w1 + w2 * w2 <> 0)%R).
  { intros b w1 w2 W O H C. apply H. assert (Z : (w1, w2) = x0) by (apply xnorm2_zero; exact C). injection Z as -> ->. rewrite !(phys0 _ _ O). unfold x0. f_equal; ring. }
  destruct p as [x|[z1 z2]|a x|a [z1 z2]], q as [y|[w1 w2]|b y|b [w1 w2]]; cbn [c_div] in E; try discriminate E;
    unfold plain_operand in *; cbn [unit_of] in *; cbn [cphysical fst snd] in NZ |- *.
  - destruct (ty_inv fuel b) as [c|] eqn:M; [|discriminate E]. injection E as <-. destruct Q as [Wb Ob]. destruct (inv0 _ _ _ Wb M) as (Oc & Wc & V). specialize (QC _ _ _ Wb Ob NZ). pose proof (rr_val_pos (u_scale b)) as SP. cbn [unit_of]. split; [tauto|].
    cbn [cphysical fst snd]. rewrite !(phys0 _ _ Oc), !(phys0 _ _ Ob), V. unfold xdiv, xmul, xre, xnorm2. cbn [fst snd]. f_equal; field; split; lra.
  - destruct (ty_inv fuel b) as [c|] eqn:M; [|discriminate E]. injection E as <-. destruct Q as [Wb Ob]. destruct (inv0 _ _ _ Wb M) as (Oc & Wc & V). specialize (QC _ _ _ Wb Ob NZ). pose proof (rr_val_pos (u_scale b)) as SP. cbn [unit_of]. split; [tauto|].
    cbn [cphysical fst snd]. rewrite !(phys0 _ _ Oc), !(phys0 _ _ Ob), V. unfold xdiv, xmul, xre, xnorm2. cbn [fst snd]. f_equal; field; split; lra.
  - destruct (ty_div fuel a b) as [c|] eqn:M; [|discriminate E]. injection E as <-. destruct Q as [Wb Ob], P as [Wa Oa]. destruct (div0 _ _ _ _ Wa Wb M) as (Oc & Wc & V). specialize (QC _ _ _ Wb Ob NZ). pose proof (rr_val_pos (u_scale b)) as SP. cbn [unit_of]. split; [tauto|].
    cbn [cphysical fst snd]. rewrite !(phys0 _ _ Oc), !(phys0 _ _ Ob), !(phys0 _ _ Oa), V. unfold xdiv, xmul, xre, xnorm2. cbn [fst snd]. f_equal; field; split; lra.
  - injection E as <-. destruct P as [Wa Oa]. cbn [unit_of]. split; [tauto|]. cbn [cphysical fst snd]. rewrite !(phys0 _ _ Oa). assert (y <> 0)%R by (intros C; apply NZ; rewrite C; reflexivity).
    unfold xdiv, xmul, xre, xnorm2. cbn [fst snd]. f_equal; field; assumption.
  - injection E as <-. destruct P as [Wa Oa]. cbn [unit_of]. split; [tauto|]. cbn [cphysical fst snd]. rewrite !(phys0 _ _ Oa). apply xnz in NZ.
    unfold xdiv, xmul, xre, xnorm2. cbn [fst snd]. f_equal; field; lra.
  - destruct Q as [Wb Ob], P as [Wa Oa]. specialize (QN _ _ Wb Ob NZ). pose proof (rr_val_pos (u_scale b)) as SP. destruct (same_type a b).
    + destruct (ty_div fuel a b) as [c|] eqn:M; [|discriminate E]. injection E as <-. destruct (div0 _ _ _ _ Wa Wb M) as (Oc & Wc & V). cbn [unit_of]. split; [tauto|].
      cbn [cphysical fst snd]. rewrite !(phys0 _ _ Oc), !(phys0 _ _ Ob), !(phys0 _ _ Oa), V. unfold xdiv, xmul, xre, xnorm2. cbn [fst snd]. f_equal; field; lra.
    + destruct (ty_inv fuel b) as [i|] eqn:I; [|discriminate E]. destruct (inv0 _ _ _ Wb I) as (Oi & Wi & Vi). cbn [c_mul] in E.
      destruct (ty_mul fuel i a) as [c|] eqn:M; [|discriminate E]. injection E as <-. destruct (mul0 _ _ _ _ Wi Wa M) as (Oc & Wc & V). cbn [unit_of]. split; [tauto|].
      cbn [cphysical fst snd]. rewrite !(phys0 _ _ Oc), !(phys0 _ _ Ob), !(phys0 _ _ Oa), V, Vi. unfold xdiv, xmul, xre, xnorm2. cbn [fst snd]. f_equal; field; lra.
  - destruct (ty_div fuel a b) as [c|] eqn:M; [|discriminate E]. injection E as <-. destruct Q as [Wb Ob], P as [Wa Oa]. destruct (div0 _ _ _ _ Wa Wb M) as (Oc & Wc & V). specialize (QC _ _ _ Wb Ob NZ). pose proof (rr_val_pos (u_scale b)) as SP. cbn [unit_of]. split; [tauto|].
    cbn [cphysical fst snd]. rewrite !(phys0 _ _ Oc), !(phys0 _ _ Ob), !(phys0 _ _ Oa), V. unfold xdiv, xmul, xre, xnorm2. cbn [fst snd]. f_equal; field; split; lra.
Qed.

(** ** C108 *)
(** Whenever a product or quotient with a complex quantity compiles, its physical value is the product or quotient of the physical
    values.  Missing: units with an offset (C79_offset_refuted), combinations without overload (C108_no_overload_refuted). *)
Theorem C108_physical_partial : forall fuel p q r, plain_operand p -> plain_operand q ->
  (c_mul fuel p q = Some r -> cphysical r = xmul (cphysical p) (cphysical q)) /\
  (cphysical q <> x0 -> c_div fuel p q = Some r -> xmul (cphysical r) (cphysical q) = cphysical p).
Proof. intros fuel p q r P Q. split; intros; [now apply (c_mul_phys fuel p q r P Q)|now apply (c_div_phys fuel p q r P Q)]. Qed.
Print Assumptions C108_physical_partial.

(** Its dimension is the sum or difference of the dimensions. *)
Lemma dim_ext fuel u e f : dim_of fuel true u e -> same_expo e f -> exists g, dim_of fuel true u g /\ same_expo g f.
Proof. intros D E. now exists e. Qed.
Theorem C108_dimension : forall fuel p q r e f, operand_dim fuel p e -> operand_dim fuel q f ->
  (c_mul fuel p q = Some r -> exists u g, unit_of r = Some u /\ dim_of fuel true u g /\ same_expo g (fun i => e i + f i)%Q) /\
  (c_div fuel p q = Some r -> exists u g, unit_of r = Some u /\ dim_of fuel true u g /\ same_expo g (fun i => e i - f i)%Q).
Proof.
  intros fuel p q r e f P Q. split; intros E.
  - destruct p as [x|z|a x|a z], q as [y|w|b y|b w]; cbn [c_mul] in E; try discriminate E; unfold operand_dim in *; cbn [unit_of] in *;
      try (destruct (ty_mul fuel _ _) as [c|] eqn:M in E; [|discriminate E]; cbn [typed] in E); injection E as <-; cbn [unit_of];
      (eexists; eexists; split; [reflexivity|]).
    + split; [exact Q|]. intros i _. rewrite P. ring.
    + split; [exact Q|]. intros i _. rewrite P. ring.
    + split; [eapply do_mul; [exact P|exact Q|exact M]|]. intros i _. reflexivity.
    + split; [exact P|]. intros i _. rewrite Q. ring.
    + split; [exact P|]. intros i _. rewrite Q. ring.
    + split; [eapply do_mul; [exact Q|exact P|exact M]|]. intros i _. cbv beta. ring.
    + split; [eapply do_mul; [exact P|exact Q|exact M]|]. intros i _. reflexivity.
  - destruct p as [x|z|a x|a z], q as [y|w|b y|b w]; cbn [c_div] in E; try discriminate E; unfold operand_dim in *; cbn [unit_of] in *.
    + destruct (ty_inv fuel b) as [c|] eqn:M; [|discriminate E]. injection E as <-. eexists. eexists. split; [reflexivity|]. split; [eapply do_inv; [exact Q|exact M]|]. intros i _. cbv beta. rewrite P. ring.
    + destruct (ty_inv fuel b) as [c|] eqn:M; [|discriminate E]. injection E as <-. eexists. eexists. split; [reflexivity|]. split; [eapply do_inv; [exact Q|exact M]|]. intros i _. cbv beta. rewrite P. ring.
    + destruct (ty_div fuel a b) as [c|] eqn:M; [|discriminate E]. injection E as <-. eexists. eexists. split; [reflexivity|]. split; [eapply do_div; [exact P|exact Q|exact M]|]. intros i _. reflexivity.
    + injection E as <-. eexists. eexists. split; [reflexivity|]. split; [exact P|]. intros i _. rewrite Q. ring.
    + injection E as <-. eexists. eexists. split; [reflexivity|]. split; [exact P|]. intros i _. rewrite Q. ring.
    + destruct (same_type a b).
      * destruct (ty_div fuel a b) as [c|] eqn:M; [|discriminate E]. injection E as <-. eexists. eexists. split; [reflexivity|]. split; [eapply do_div; [exact P|exact Q|exact M]|]. intros i _. reflexivity.
      * destruct (ty_inv fuel b) as [i|] eqn:I; [|discriminate E]. cbn [c_mul] in E. destruct (ty_mul fuel i a) as [c|] eqn:M; [|discriminate E]. injection E as <-. eexists. eexists. split; [reflexivity|].
        split; [eapply do_mul; [eapply do_inv; [exact Q|exact I]|exact P|exact M]|]. intros j _. cbv beta. ring.
    + destruct (ty_div fuel a b) as [c|] eqn:M; [|discriminate E]. injection E as <-. eexists. eexists. split; [reflexivity|]. split; [eapply do_div; [exact P|exact Q|exact M]|]. intros i _. reflexivity.
Qed.
Print Assumptions C108_dimension.

(** norm(z) is the squared magnitude, of dimension squared; polar(|z|, arg z) = z for a complex quantity, whatever std::arg returns
    as long as it is an argument of z. *)
Theorem C108_norm_polar : forall fuel u z, unit_ok u -> u_off u = Ratio 0 1 ->
  (forall c m, c_norm fuel u z = Some (c, m) -> physical c m = (physical u (fst z) * physical u (fst z) + physical u (snd z) * physical u (snd z))%R) /\
  (forall argT, (forall w : cx, fst w = sqrt (xnorm2 w) * cos (argT w) /\ snd w = sqrt (xnorm2 w) * sin (argT w))%R ->
   forall t th c re im, c_arg fuel argT u z = Some (t, th) ->
   qm_polar Rplus Rmult Rdiv IZR exact_eval fuel cos sin u t (sqrt (xnorm2 z)) th = Some (c, (re, im)) -> c = u /\ (re, im) = z).
Proof.
  intros fuel u z W O. split.
  - intros c m E. unfold c_norm in E. destruct (ty_mul fuel u u) as [c'|] eqn:M; [|discriminate E]. injection E as <- <-. destruct (mul0 _ _ _ _ W W M) as (Oc & Wc & V).
    rewrite !(phys0 _ _ Oc), !(phys0 _ _ O), V. unfold xnorm2. ring.
  - intros argT A t th c re im E H. unfold c_arg in E. destruct (radian fuel) as [r|] eqn:R; [|discriminate E]. injection E as <- <-.
    unfold radian, base_quantity in R. destruct (base_dimension fuel 11 8) as [d|] eqn:B; [|discriminate]. destruct (base_dimension_ids _ _ B) as [_ Hd].
    assert (Er : r = U d one_rr zero_ratio) by congruence. assert (Wr : unit_ok r).
    { rewrite Er, Hd. split; [|split]; cbn; try (unfold rr_wf; cbn; repeat split); try lia; try reflexivity. }
    assert (Or : offset r = 0%R) by (rewrite Er; apply ratio_val_zero).
    destruct (C81_polar fuel u r _ _ c re im Wr Or H) as (-> & -> & ->). split; [reflexivity|]. destruct (A z) as [A1 A2].
    assert (PR : physical r (argT z) = argT z). { rewrite Er, phys0 by reflexivity. cbn [u_scale]. rewrite one_rr_val. ring. }
    rewrite PR, <- A1, <- A2. now destruct z.
Qed.
Print Assumptions C108_norm_polar.

(** FINDING: a complex number times (or divided by) a real quantity has no operator, although a number times a complex quantity and
    a complex number times a complex quantity have one. *)
Theorem C108_no_overload_refuted : forall fuel u x z,
  c_mul fuel (CNum z) (Qty u x) = None /\ c_mul fuel (Qty u x) (CNum z) = None /\
  c_div fuel (CNum z) (Qty u x) = None /\ c_div fuel (Qty u x) (CNum z) = None.
Proof. intros. repeat split. Qed.
Print Assumptions C108_no_overload_refuted.

(** (1 + 2i) km / 2 s *)
Example C108_nonvacuous : exists r, c_div 100 (CQty kilometre (1, 2)%R) (Qty second 2%R) = Some r /\ cphysical r = (500, 1000)%R.
Proof.
  assert (W1 : unit_ok kilometre) by uok. assert (W2 : unit_ok second) by uok.
  assert (I : same_type kilometre second = false) by reflexivity.
  assert (J : ty_inv 100 second = Some (U (RR 1 3 1) (RR 1 1 1) (Ratio 0 1))) by (vm_compute; reflexivity).
  assert (M : ty_mul 100 (U (RR 1 3 1) (RR 1 1 1) (Ratio 0 1)) kilometre = Some (U (RR 2 3 1) (RR 1000 1 1) (Ratio 0 1))) by (vm_compute; reflexivity).
  eexists. split; [cbn [c_div]; rewrite I, J; cbn [c_mul]; rewrite M; cbn [typed]; reflexivity|].
  assert (S : rr_val (RR 1000 1 1) = 1000%R) by (rewrite rr_val_root1; [cbn; field|unfold rr_wf; cbn; repeat split; lia|reflexivity]).
  cbn [cphysical fst snd]. unfold physical. cbn [u_scale u_off]. fold (rr_val (RR 1000 1 1)). rewrite S. unfold xmul, xre. cbn [fst snd r_num r_den]. f_equal; field.
Qed.
