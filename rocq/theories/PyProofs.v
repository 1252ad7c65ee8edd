(** Proofs for PyProps.v *)
From Coq Require Import Reals ZArith List Bool Lia Lra.
From Verif Require Import FramesModel FramesSpec FramesProofs RotationProofs RotationProofs2 FramesWitness DualModel Outcome KinModel InertiaModel JntModel MiscModel MiscSpec EqSpec PyModel PySpec.
Import ListNotations.
Local Open Scope Z_scope.

Lemma as_int_no {A} z (k : Z -> pyres A) : ~ c_int z -> as_int z k = PyTypeError.
Proof.
  unfold as_int, in_range, c_int. intros H. change (2 ^ 31) with 2147483648 in H.
  destruct (Z.leb_spec (-2147483648) z), (Z.leb_spec z 2147483647); cbn; try reflexivity; lia.
Qed.
Lemma as_int_yes {A} z (k : Z -> pyres A) : c_int z -> as_int z k = k z.
Proof.
  unfold as_int, in_range, c_int. intros H. change (2 ^ 31) with 2147483648 in H.
  destruct (Z.leb_spec (-2147483648) z), (Z.leb_spec z 2147483647); cbn; try reflexivity; lia.
Qed.
Ltac out := repeat match goal with |- context [?a <? ?b] => destruct (Z.ltb_spec a b) | |- context [?a <=? ?b] => destruct (Z.leb_spec a b) end;
  cbn [orb andb]; try reflexivity; try lia.
Ltac small z H := let E := fresh in
  assert (E : z = 0 \/ z = 1 \/ z = 2 \/ z = 3 \/ z = 4 \/ z = 5 \/ z = 6 \/ z = 7 \/ z = 8) by lia;
  repeat (destruct E as [E|E]); subst z; try lia.

Ltac rd := intros o z; split; [intros N; apply as_int_no, N | split; intros C H; [
    | ]].
Ltac repl := split; [reflexivity | split; [reflexivity | intros j J; do 9 (try (destruct j as [|j]; [first [reflexivity | congruence | lia] |])); first [reflexivity | destruct j; reflexivity]]].

Lemma v_reads : reads co_v py_v_get.
Proof.
  intros o z; split; [intros N; apply as_int_no, N |]. cbn [co_v length].
  split; intros C H; unfold py_v_get; rewrite as_int_yes by exact C; [out|].
  small z H; reflexivity.
Qed.
Lemma v_writes : writes co_v py_v_set.
Proof.
  intros o z x; split; [intros N; apply as_int_no, N |]. cbn [co_v length].
  split; intros C H; unfold py_v_set; rewrite as_int_yes by exact C; [out|].
  small z H; (eexists; split; [reflexivity|]); repl.
Qed.
Lemma w_reads : reads co_w py_w_get.
Proof.
  intros o z; split; [intros N; apply as_int_no, N |]. cbn [co_w co_v app length].
  split; intros C H; unfold py_w_get; rewrite as_int_yes by exact C; [out|].
  small z H; reflexivity.
Qed.
Lemma w_writes : writes co_w py_w_set.
Proof.
  intros o z x; split; [intros N; apply as_int_no, N |]. cbn [co_w co_v app length].
  split; intros C H; unfold py_w_set; rewrite as_int_yes by exact C; [out|].
  small z H; (eexists; split; [reflexivity|]); repl.
Qed.
Lemma t_reads : reads co_t py_t_get.
Proof.
  intros o z; split; [intros N; apply as_int_no, N |]. cbn [co_t co_v app length].
  split; intros C H; unfold py_t_get; rewrite as_int_yes by exact C; [out|].
  small z H; reflexivity.
Qed.
Lemma t_writes : writes co_t py_t_set.
Proof.
  intros o z x; split; [intros N; apply as_int_no, N |]. cbn [co_t co_v app length].
  split; intros C H; unfold py_t_set; rewrite as_int_yes by exact C; [out|].
  small z H; (eexists; split; [reflexivity|]); repl.
Qed.
Lemma ri_reads : reads co_ri py_ri_get.
Proof.
  intros o z; split; [intros N; apply as_int_no, N |]. cbn [co_ri co_r length].
  split; intros C H; unfold py_ri_get; rewrite as_int_yes by exact C; [out|].
  small z H; reflexivity.
Qed.
Lemma ri_writes : writes co_ri py_ri_set.
Proof.
  intros o z x; split; [intros N; apply as_int_no, N |]. cbn [co_ri co_r length].
  split; intros C H; unfold py_ri_set; rewrite as_int_yes by exact C; [out|].
  small z H; (eexists; split; [reflexivity|]); repl.
Qed.
Lemma upd_len {A} (l : list A) i x : length (upd l i x) = length l.
Proof.
  revert i; induction l; intros [|i]; cbn; auto.
Qed.
Lemma upd_nth {A} (l : list A) i j x d : (i < length l)%nat -> nth j (upd l i x) d = if Nat.eqb j i then x else nth j l d.
Proof.
  revert i j; induction l; intros [|i] [|j] H; cbn in *; try lia; auto. apply IHl. lia.
Qed.
Lemma jnt_reads : reads (fun q : list R => q) py_jnt_get.
Proof.
  intros o z; split; [intros N; apply as_int_no, N |].
  split; intros C H; unfold py_jnt_get, jnt_rows; rewrite as_int_yes by exact C; [out|].
  out. unfold jnt_get, aget. rewrite (nth_error_nth' o 0%R) by lia. reflexivity.
Qed.
Lemma jnt_writes : writes (fun q : list R => q) py_jnt_set.
Proof.
  intros o z x; split; [intros N; apply as_int_no, N |].
  split; intros C H; unfold py_jnt_set, jnt_rows; rewrite as_int_yes by exact C; [out|].
  out. unfold jnt_set, aset. destruct (Nat.ltb_spec (Z.to_nat z) (length o)); [|lia].
  eexists; split; [reflexivity|]. split; [apply upd_len | split; [|intros j J]]; rewrite upd_nth by assumption.
  - now rewrite Nat.eqb_refl.
  - now apply Nat.eqb_neq in J as ->.
Qed.
Lemma co_v_det : determines co_v.
Proof.
  intros [] [] E; now inversion E.
Qed.
Lemma co_w_det : determines co_w.
Proof.
  intros [[] []] [[] []] E; now inversion E.
Qed.
Lemma co_t_det : determines co_t.
Proof.
  intros [[] []] [[] []] E; now inversion E.
Qed.
Lemma co_ri_det : determines co_ri.
Proof.
  intros [[]] [[]] E; now inversion E.
Qed.

(** iteration *)
Lemma list_from {A} (members : A -> list R) get o : reads members get -> Z.of_nat (length (members o)) < 2 ^ 31 ->
  forall m k, (k + m = length (members o))%nat -> forall fuel, (m < fuel)%nat ->
  py_list fuel (get o) (Z.of_nat k) = PyOk (skipn k (members o)).
Proof.
  intros RD B. change (2 ^ 31) with 2147483648 in B.
  assert (CI : forall k, (k <= length (members o))%nat -> c_int (Z.of_nat k))
    by (intros k K; unfold c_int; change (2 ^ 31) with 2147483648; lia).
  induction m; intros k K [|fuel] F; try lia; cbn [py_list]; destruct (RD o (Z.of_nat k)) as (_ & E & G).
  - rewrite E by (try apply CI; lia). rewrite skipn_all2 by lia. reflexivity.
  - rewrite G by (try apply CI; lia). rewrite Nat2Z.id.
    replace (Z.of_nat k + 1) with (Z.of_nat (S k)) by lia. rewrite IHm by lia.
    f_equal. destruct (nth_split (members o) 0%R (n := k)) as (a & b & E1 & E2); [lia|].
    assert (LK : skipn k (members o) = nth k (members o) 0%R :: b)
      by (rewrite E1 at 1; rewrite skipn_app, <- E2, skipn_all, Nat.sub_diag; reflexivity).
    rewrite LK. f_equal. rewrite E1. change (a ++ nth k (members o) 0%R :: b) with (a ++ [nth k (members o) 0%R] ++ b).
    rewrite app_assoc, skipn_app. rewrite skipn_all2 by (rewrite app_length; cbn; lia).
    rewrite app_length. cbn [length]. replace (S k - (length a + 1))%nat with 0%nat by lia. reflexivity.
Qed.
Lemma iteration {A} (members : A -> list R) get : reads members get -> forall o fuel,
  Z.of_nat (length (members o)) < 2 ^ 31 -> (length (members o) < fuel)%nat ->
  py_list fuel (get o) 0 = PyOk (members o).
Proof.
  intros RD o fuel B F. exact (list_from members get o RD B (length (members o)) 0 eq_refl fuel F).
Qed.
Lemma iterate_all :
  (forall v fuel, (3 < fuel)%nat -> py_list fuel (py_v_get v) 0 = PyOk (co_v v)) /\
  (forall w fuel, (6 < fuel)%nat -> py_list fuel (py_w_get w) 0 = PyOk (co_w w)) /\
  (forall t fuel, (6 < fuel)%nat -> py_list fuel (py_t_get t) 0 = PyOk (co_t t)) /\
  (forall I fuel, (9 < fuel)%nat -> py_list fuel (py_ri_get I) 0 = PyOk (co_r (ri_data I))) /\
  (forall q fuel, Z.of_nat (length q) < 2 ^ 31 -> (length q < fuel)%nat -> py_list fuel (py_jnt_get q) 0 = PyOk q).
Proof.
  repeat split; intros.
  - apply (iteration _ _ v_reads); [reflexivity | assumption].
  - apply (iteration _ _ w_reads); [reflexivity | assumption].
  - apply (iteration _ _ t_reads); [reflexivity | assumption].
  - apply (iteration _ _ ri_reads); [reflexivity | assumption].
  - apply (iteration _ _ jnt_reads); assumption.
Qed.

(** two indices *)
Ltac nums := repeat match goal with |- context [Z.to_nat ?z] => let n := eval compute in (Z.to_nat z) in change (Z.to_nat z) with n end;
  repeat match goal with |- context [Pos.to_nat ?z] => let n := eval compute in (Pos.to_nat z) in change (Pos.to_nat z) with n end.
Ltac no2 := match goal with N : ~ c_int ?i \/ ~ c_int ?j |- _ =>
  destruct N as [N|N]; [now apply as_int_no |
    match goal with |- as_int ?a _ = _ => unfold as_int at 1; destruct (in_range _ _ a); [now apply as_int_no | reflexivity] end] end.
Lemma r_reads : reads2 (fun _ => True) (fun _ => 3%nat) (fun _ => 3%nat) r_entry py_r_get.
Proof.
  intros o i j _; split; [intros N; unfold py_r_get; no2 |].
  split; intros CI CJ; [intros H | intros H1 H2]; unfold py_r_get; rewrite !as_int_yes by assumption; [out|].
  small i H1; small j H2; match goal with |- ?a = PyOk ?b => let c := fresh in evar (c : R); transitivity (PyOk c); subst c; [reflexivity|] end; nums; cbn -[Rplus Rmult]; unfold r_app; cbn [vx vy vz]; f_equal; ring.
Qed.
Ltac closer := split; [exact I | split; [reflexivity | split; [reflexivity | split; [cbn; ring | ]]]];
  intros a b A B N;
  assert (a = 0 \/ a = 1 \/ a = 2)%nat as [ -> | [ -> | -> ] ] by lia;
  (assert (b = 0 \/ b = 1 \/ b = 2 \/ b = 3)%nat as [ -> | [ -> | [ -> | -> ] ] ] by lia); try lia; cbn; ring.
Lemma r_writes : writes2 (fun _ => True) (fun _ => 3%nat) (fun _ => 3%nat) r_entry py_r_set.
Proof.
  intros o i j x _; split; [intros N; unfold py_r_set; no2 |].
  split; intros CI CJ; [intros H | intros H1 H2]; unfold py_r_set; rewrite !as_int_yes by assumption; [out|].
  small i H1; small j H2; (eexists; split; [reflexivity|]); nums; unfold r_entry, r_app; closer.
Qed.
Lemma f_reads : reads2 (fun _ => True) (fun _ => 3%nat) (fun _ => 4%nat) f_entry py_f_get.
Proof.
  intros o i j _; split; [intros N; unfold py_f_get; no2 |].
  split; intros CI CJ; [intros H | intros H1 H2]; unfold py_f_get; rewrite !as_int_yes by assumption; [out|].
  small i H1; small j H2; match goal with |- ?a = PyOk ?b => let c := fresh in evar (c : R); transitivity (PyOk c); subst c; [reflexivity|] end; nums; unfold f_entry, f_app, r_app, v_add; cbn -[Rplus Rmult Rminus]; f_equal; ring.
Qed.
Lemma f_writes : writes2 (fun _ => True) (fun _ => 3%nat) (fun _ => 4%nat) f_entry py_f_set.
Proof.
  intros o i j x _; split; [intros N; unfold py_f_set; no2 |].
  split; intros CI CJ; [intros H | intros H1 H2]; unfold py_f_set; rewrite !as_int_yes by assumption; [out|].
  small i H1; small j H2; (eexists; split; [reflexivity|]); nums; unfold f_entry, f_app, r_app, v_add; closer.
Qed.
Lemma jac_reads : reads2 (fun _ => True) (fun _ => 6%nat) cols jac_entry py_jac_get.
Proof.
  intros o i j _; split; [intros N; unfold py_jac_get; no2 |]. unfold cols.
  split; intros CI CJ; [intros H | intros H1 H2]; unfold py_jac_get; rewrite !as_int_yes by assumption; [out|].
  replace ((i <? 0) || (5 <? i) || (j <? 0) || (Z.of_nat (length o) <=? j)) with false by out.
  unfold jac_at, jac_entry, aget. destruct (Z.ltb_spec j 0); [lia|].
  rewrite (nth_error_nth' o (mkT (mkV 0 0 0) (mkV 0 0 0))) by lia. cbn [obind].
  small i H1; reflexivity.
Qed.
Lemma t_put_ok t i x : 0 <= i < 6 -> exists t', t_put t i x = Ret t' /\ replaced (co_t t) (co_t t') (Z.to_nat i) x.
Proof.
  intros H. small i H; (eexists; split; [reflexivity|]); repl.
Qed.
Lemma jac_writes : writes2 (fun _ => True) (fun _ => 6%nat) cols jac_entry py_jac_set.
Proof.
  intros o i j x _; split; [intros N; unfold py_jac_set; no2 |]. unfold cols.
  split; intros CI CJ; [intros H | intros H1 H2]; unfold py_jac_set; rewrite !as_int_yes by assumption; [out|].
  replace ((i <? 0) || (5 <? i) || (j <? 0) || (Z.of_nat (length o) <=? j)) with false by out.
  unfold jac_put, aget, aset. destruct (Z.ltb_spec j 0); [lia|].
  rewrite (nth_error_nth' o (mkT (mkV 0 0 0) (mkV 0 0 0))) by lia. cbn [obind].
  destruct (t_put_ok (nth (Z.to_nat j) o (mkT (mkV 0 0 0) (mkV 0 0 0))) i x H1) as (t' & -> & L & E & K). cbn [obind].
  destruct (Nat.ltb_spec (Z.to_nat j) (length o)) as [LT|]; [|lia].
  eexists; split; [reflexivity|]. rewrite upd_len. unfold jac_entry. split; [trivial|]. split; [reflexivity|]. split; [reflexivity|]. split.
  - rewrite upd_nth, Nat.eqb_refl by exact LT. exact E.
  - intros a b A B N. rewrite upd_nth by exact LT. destruct (Nat.eqb_spec b (Z.to_nat j)); [|reflexivity].
    subst b. apply K. destruct N; congruence.
Qed.
Lemma jm_idx n i j : (i < n -> j < n -> j * n + i < n * n)%nat.
Proof.
  intros. nia.
Qed.
Lemma jm_reads : reads2 square jm_n jm_n jm_entry py_jm_get.
Proof.
  intros o i j SQ; split; [intros N; unfold py_jm_get; no2 |].
  split; intros CI CJ; [intros H | intros H1 H2]; unfold py_jm_get; rewrite !as_int_yes by assumption; [out|].
  replace ((i <? 0) || (Z.of_nat (jm_n o) <=? i) || (j <? 0) || (Z.of_nat (jm_n o) <=? j)) with false by out.
  unfold jm_get. destruct (Nat.ltb_spec (Z.to_nat i) (jm_n o)); [|lia]. destruct (Nat.ltb_spec (Z.to_nat j) (jm_n o)); [|lia].
  cbn [andb]. unfold aget. rewrite (nth_error_nth' _ 0%R); [reflexivity|]. rewrite SQ. now apply jm_idx.
Qed.
Lemma jm_writes : writes2 square jm_n jm_n jm_entry py_jm_set.
Proof.
  intros o i j x SQ; split; [intros N; unfold py_jm_set; no2 |].
  split; intros CI CJ; [intros H | intros H1 H2]; unfold py_jm_set; rewrite !as_int_yes by assumption; [out|].
  replace ((i <? 0) || (Z.of_nat (jm_n o) <=? i) || (j <? 0) || (Z.of_nat (jm_n o) <=? j)) with false by out.
  unfold jm_set. destruct (Nat.ltb_spec (Z.to_nat i) (jm_n o)) as [LI|]; [|lia]. destruct (Nat.ltb_spec (Z.to_nat j) (jm_n o)) as [LJ|]; [|lia].
  cbn [andb]. unfold aset. assert (LT := jm_idx _ _ _ LI LJ). rewrite <- SQ in LT.
  destruct (Nat.ltb_spec (Z.to_nat j * jm_n o + Z.to_nat i) (length (jm_d o))) as [_|]; [|lia]. cbn [obind of_out].
  eexists; split; [reflexivity|]. unfold square, jm_entry. cbn [jm_n jm_d]. rewrite upd_len. split; [exact SQ|].
  split; [reflexivity|]. split; [reflexivity|]. split.
  - rewrite upd_nth, Nat.eqb_refl by exact LT. reflexivity.
  - intros a b A B N. rewrite upd_nth by exact LT.
    destruct (Nat.eqb_spec (b * jm_n o + a) (Z.to_nat j * jm_n o + Z.to_nat i)) as [E|]; [|reflexivity].
    exfalso. assert (b = Z.to_nat j) by nia. assert (a = Z.to_nat i) by nia. destruct N; congruence.
Qed.
