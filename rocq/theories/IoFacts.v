From Coq Require Import ZArith Ascii.
From Verif Require Import Base Io IoSpec.
Open Scope nat_scope.
Set Implicit Arguments.

Lemma ascii_eqb_false a b : a <> b -> Ascii.eqb a b = false.
Proof. intros H. apply Ascii.eqb_neq, H. Qed.

(** ** Splitting *)
Definition emit (t : text) : list text := match t with [] => [] | _ => [t] end.
Fixpoint pieces (sep : ascii) (s acc : text) : list text :=
  match s with [] => emit acc | c :: r => if Ascii.eqb c sep then emit acc ++ pieces sep r [] else pieces sep r (acc ++ [c]) end.

Lemma pieces_free sep t : forall acc, ~ In sep t -> pieces sep t acc = emit (acc ++ t).
Proof.
  induction t as [|c t IH]; intros acc H; cbn.
  - now rewrite app_nil_r.
  - rewrite ascii_eqb_false by (intros ->; apply H; now left). rewrite IH by (intros X; apply H; now right).
    now rewrite <- app_assoc.
Qed.
Lemma pieces_app sep t r : forall acc, ~ In sep t -> pieces sep (t ++ sep :: r) acc = emit (acc ++ t) ++ pieces sep r [].
Proof.
  induction t as [|c t IH]; intros acc H; cbn.
  - now rewrite Ascii.eqb_refl, app_nil_r.
  - rewrite ascii_eqb_false by (intros ->; apply H; now left). rewrite IH by (intros X; apply H; now right).
    now rewrite <- app_assoc.
Qed.

Lemma emit_nonempty p : p <> [] -> emit p = [p].
Proof. intros H. destruct p; [congruence|reflexivity]. Qed.

Lemma fields_pieces sep s ps : fields sep s ps -> ps = pieces sep s [].
Proof.
  induction 1 as [|s ps H IH|p N F|p s ps N F H IH].
  - reflexivity.
  - cbn. rewrite Ascii.eqb_refl. cbn. exact IH.
  - rewrite pieces_free by exact F. cbn. now rewrite emit_nonempty.
  - rewrite pieces_app by exact F. cbn [app]. rewrite emit_nonempty by exact N. cbn. now f_equal.
Qed.

Lemma extract_spec d : forall rest, exists t,
  ~ In d t /\ ((rest = t /\ extract d rest = (t, [], true)) \/ exists r, rest = t ++ d :: r /\ extract d rest = (t, r, false)).
Proof.
  induction rest as [|c rest IH].
  - exists []. split; [intros []|]. now left.
  - cbn [extract]. destruct (Ascii.eqb c d) eqn:E.
    + apply Ascii.eqb_eq in E. subst c. exists []. split; [intros []|]. right. exists rest. now split.
    + apply Ascii.eqb_neq in E. destruct IH as [t [F [[-> X]|[r [-> X]]]]]; exists (c :: t).
      * split; [intros [->|I]; auto|]. left. now rewrite X.
      * split; [intros [->|I]; auto|]. right. exists r. now rewrite X.
Qed.

Lemma pieces_fields sep : forall s, fields sep s (pieces sep s []).
Proof.
  intros s. remember (length s) as n eqn:E. revert s E. induction n as [n IH] using lt_wf_ind. intros s ->.
  destruct (extract_spec sep s) as [t [F [[-> _]|[r [-> _]]]]].
  - rewrite pieces_free by exact F. cbn [app]. destruct t as [|c t]; [constructor|]. cbn. constructor; [discriminate|exact F].
  - rewrite pieces_app by exact F. cbn [app]. assert (H : fields sep r (pieces sep r [])).
    { apply (IH (length r)); [rewrite app_length; cbn; lia|reflexivity]. }
    destruct t as [|c t]; cbn [emit app]; [now constructor|]. apply (@fields_more sep (c :: t) r); [discriminate|exact F|exact H].
Qed.
Lemma fields_iff sep s ps : fields sep s ps <-> ps = pieces sep s [].
Proof. split; [apply fields_pieces|intros ->; apply pieces_fields]. Qed.

(** ** iterate_line *)
Fixpoint number (ps : list text) (col : Z) : list (text * Z) := match ps with [] => [] | p :: r => (p, col) :: number r (col + 1) end.
Lemma number_columns ps : number ps 0 = columns ps.
Proof.
  unfold columns. assert (H : forall k, number ps (Z.of_nat k) = combine ps (map Z.of_nat (seq k (length ps)))).
  { induction ps as [|p ps IH]; intros k; [reflexivity|]. cbn [number length seq map combine]. f_equal.
    replace (Z.of_nat k + 1)%Z with (Z.of_nat (S k)) by lia. apply IH. }
  apply (H 0).
Qed.

(** What the loop does with the numbered pieces. *)
Fixpoint select (usecols : list Z) (u : nat) (cols : list (text * Z)) : list (text * Z) :=
  match cols with
  | [] => []
  | (p, c) :: r =>
    if Z.eqb (nth u usecols 0%Z) c then (p, c) :: (if S u =? length usecols then [] else select usecols (S u) r)
    else select usecols u r
  end.

Lemma loop_all sep : forall fuel st tok col u, st_good st = true -> length (st_rest st) < fuel ->
  iterate_line_loop fuel sep [] st tok col u = Ok (number (pieces sep (st_rest st) []) col).
Proof.
  induction fuel as [|fuel IH]; intros [rest good] tok col u G L; cbn [st_good st_rest] in *; [lia|]. subst good.
  cbn [iterate_line_loop]. unfold getline. cbn [st_good st_rest].
  destruct (extract_spec sep rest) as [t [F [[-> X]|[r [-> X]]]]]; rewrite X.
  - rewrite pieces_free by exact F. cbn [negb orb app]. destruct t as [|c t]; [reflexivity|]. cbn [is_nil negb emit number bind length Nat.eqb].
    destruct fuel as [|fuel]; [cbn in L; lia|]. reflexivity.
  - rewrite pieces_app by exact F. cbn [negb orb app]. rewrite app_length in L. cbn [length] in L.
    destruct t as [|c t]; cbn [is_nil negb emit app number bind length Nat.eqb].
    + apply IH; cbn [st_good st_rest]; [reflexivity|lia].
    + rewrite IH; cbn [st_good st_rest]; [reflexivity|reflexivity|cbn in L; lia].
Qed.

Lemma loop_select sep usecols : usecols <> [] -> forall fuel st tok col u, st_good st = true -> length (st_rest st) < fuel -> u < length usecols ->
  iterate_line_loop fuel sep usecols st tok col u = Ok (select usecols u (number (pieces sep (st_rest st) []) col)).
Proof.
  intros NE. assert (N : is_nil usecols = false) by (destruct usecols; [congruence|reflexivity]).
  induction fuel as [|fuel IH]; intros [rest good] tok col u G L U; cbn [st_good st_rest] in *; [lia|]. subst good.
  cbn [iterate_line_loop]. unfold getline. cbn [st_good st_rest].
  assert (A : at_ub usecols u = Ok (nth u usecols 0%Z)) by (unfold at_ub; now rewrite (nth_error_nth' _ 0%Z U)).
  destruct (extract_spec sep rest) as [t [F [[-> X]|[r [-> X]]]]]; rewrite X.
  - rewrite pieces_free by exact F. cbn [negb orb app]. destruct t as [|c t]; [reflexivity|]. cbn [is_nil negb emit number]. rewrite N, A. cbn [bind select].
    destruct (Z.eqb _ col); destruct fuel as [|fuel]; try (cbn in L; lia); [|reflexivity].
    cbv zeta. destruct (S u =? length usecols); reflexivity.
  - rewrite pieces_app by exact F. cbn [negb orb app]. rewrite app_length in L. cbn [length] in L.
    destruct t as [|c t]; cbn [is_nil negb emit app number].
    + apply IH; cbn [st_good st_rest]; [reflexivity|lia|exact U].
    + rewrite N, A. cbn [bind select]. cbn [length] in L. destruct (Z.eqb _ col).
      * cbv zeta. destruct (S u =? length usecols) eqn:E; [reflexivity|]. apply Nat.eqb_neq in E.
        rewrite IH; cbn [st_good st_rest]; [reflexivity|reflexivity|lia|lia].
      * apply IH; cbn [st_good st_rest]; [reflexivity|lia|exact U].
Qed.

Lemma cstr_before s p : before_nul s p -> cstr s = p.
Proof.
  assert (A : forall p t, ~ In nul p -> cstr (p ++ t) = p ++ cstr t).
  { induction p0 as [|c q IH]; intros t H; [reflexivity|]. cbn. rewrite ascii_eqb_false by (intros ->; apply H; now left). f_equal.
    apply IH. intros X. apply H. now right. }
  intros [q H|q t H].
  - rewrite <- (app_nil_r q) at 1. rewrite A by exact H. apply app_nil_r.
  - rewrite A by exact H. cbn. apply app_nil_r.
Qed.
Lemma cstr_free s : ~ In nul s -> cstr s = s.
Proof. intros H. apply cstr_before. now constructor. Qed.
Lemma cstr_no_nul s : ~ In nul (cstr s).
Proof.
  induction s as [|c s IH]; [intros []|]. cbn. destruct (Ascii.eqb c nul) eqn:E; [intros []|]. apply Ascii.eqb_neq in E. intros [X|X]; auto.
Qed.
Lemma before_cstr s : before_nul s (cstr s).
Proof.
  induction s as [|c s IH]; [constructor; intros []|]. cbn. destruct (Ascii.eqb c nul) eqn:E.
  - apply Ascii.eqb_eq in E. subst c. apply (@bn_cut [] s). intros [].
  - apply Ascii.eqb_neq in E. revert IH. generalize (cstr s). intros p IH. destruct IH as [q H|q t H].
    + constructor. intros [X|X]; auto.
    + apply (@bn_cut (c :: q) t). intros [X|X]; auto.
Qed.

Lemma iterate_line_all str sep : iterate_line str sep [] = Ok (columns (pieces sep (cstr str) [])).
Proof. unfold iterate_line. rewrite loop_all by (cbn; auto with arith). cbn [st_rest]. now rewrite number_columns. Qed.
Lemma iterate_line_cols str sep usecols : usecols <> [] ->
  iterate_line str sep usecols = Ok (select usecols 0 (columns (pieces sep (cstr str) []))).
Proof.
  intros H. unfold iterate_line. rewrite loop_select; [|exact H|reflexivity|cbn; lia|destruct usecols; [congruence|cbn; lia]].
  cbn [st_rest]. now rewrite number_columns.
Qed.
