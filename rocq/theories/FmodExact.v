(** fmod is exact: the remainder of two binary floating point numbers is one again (no rounding is involved in operator %). *)
From Coq Require Import ZArith Reals.
From Flocq Require Import Core.
From Verif Require Import Base PolyFit PolyFitFacts Misc MiscFacts.
From Coq Require Import Lra Psatz Lia.
Open Scope Z_scope.
Lemma format_multiple (beta : radix) emin prec (z : R) k e : 0 < prec -> emin <= e -> z = F2R (Float beta k e) -> (Rabs z <= F2R (Float beta (beta ^ prec - 1) e))%R ->
  generic_format beta (FLT_exp emin prec) z.
Proof.
  intros Hp He Hz Hb. apply generic_format_FLT. apply FLT_spec with (f := Float beta k e); [exact Hz| |exact He].
  cbn [Fnum]. rewrite Hz in Hb. rewrite <- F2R_Zabs in Hb. apply le_F2R in Hb. lia.
Qed.
Lemma fmod_exact (x y r : R) : generic_format radix2 (FLT_exp (-1074) 53) x -> generic_format radix2 (FLT_exp (-1074) 53) y -> fmod x y = Some r ->
  generic_format radix2 (FLT_exp (-1074) 53) r.
Proof.
  intros Fx Fy E. assert (Hy : y <> 0%R) by (intros Z; rewrite Z in E; unfold fmod in E; destruct (Req_EM_T 0 0); [discriminate|contradiction]).
  destruct (fmod_spec x Hy) as [r' [n [E' [D [L S0]]]]]. rewrite E in E'. injection E' as <-.
  apply FLT_format_generic in Fx; [|reflexivity]. apply FLT_format_generic in Fy; [|reflexivity]. destruct Fx as [[mx ex] Ex Bx Cx]. destruct Fy as [[my ey] Ey By Cy].
  cbn [Fnum Fexp] in *.
  assert (Lx : (Rabs r <= Rabs x)%R).
  { destruct (Req_dec x 0) as [Z|Z].
    - assert (F0 : fmod x y = Some 0%R) by (apply fmod_unique with (n := 0); [exact Hy|rewrite Z; ring|rewrite Rabs_R0; now apply Rabs_pos_lt|lra]).
      rewrite E in F0. injection F0 as ->. rewrite Z. lra.
    - unfold fmod in E. destruct (Req_EM_T y 0); [contradiction|]. injection E as E. destruct (rtrunc_spec (x / y)) as [f [Ef [_ [_ Hs]]]].
      set (t := rtrunc (x / y)) in *.
      assert (P : (0 <= x * (y * IZR t))%R) by (replace (x * (y * IZR t))%R with (y * y * (x / y * IZR t))%R by (field; exact Hy); apply Rmult_le_pos; [apply Rle_0_sqr|exact Hs]).
      destruct (Rle_dec 0 x) as [H|H].
      + assert (0 <= y * IZR t)%R by nra. assert (0 <= r)%R by nra. rewrite !Rabs_right by lra. lra.
      + assert (y * IZR t <= 0)%R by nra. assert (r <= 0)%R by nra. rewrite !Rabs_left1 by lra. lra. }
  destruct (Z.le_gt_cases ex ey) as [He|He].
  - (* a multiple of 2^ex, at most |x| *)
    apply format_multiple with (k := mx - n * (my * 2 ^ (ey - ex))) (e := ex); [reflexivity|exact Cx| |].
    + replace r with (x - IZR n * y)%R by lra. rewrite Ex, Ey. rewrite (F2R_change_exp radix2 ex my ey He). unfold F2R. cbn [Fnum Fexp radix_val radix2].
      rewrite minus_IZR, (mult_IZR n). ring.
    + eapply Rle_trans; [exact Lx|]. rewrite Ex, <- F2R_Zabs. apply F2R_le. change (radix2 ^ 53) with (Zpower radix2 53). lia.
  - apply format_multiple with (k := mx * 2 ^ (ex - ey) - n * my) (e := ey); [reflexivity|exact Cy| |].
    + replace r with (x - IZR n * y)%R by lra. rewrite Ex, Ey. rewrite (F2R_change_exp radix2 ey mx ex) by lia. unfold F2R. cbn [Fnum Fexp radix_val radix2].
      rewrite minus_IZR, (mult_IZR n). ring.
    + apply Rlt_le. eapply Rlt_le_trans; [exact L|]. rewrite Ey, <- F2R_Zabs. apply F2R_le. lia.
Qed.
