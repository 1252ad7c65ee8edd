(** The LDL solver and forward dynamics in rounded arithmetic. *)
From Coq Require Import Reals String List ZArith Bool Lra Lia.
From Verif Require Import FramesModel Outcome LoopProofs InertiaModel DualModel KinModel KinSpec LinModel LinSpec SumProofs LdlProofs DynModel DynSpec RneProofs MassProofs DynProofs FdProofs
  FlModel FlJacModel FlRotModel FlDynModel FlMassModel FlSpec FlDynProofs FlDynMain FlMassProofs.
Import ListNotations.
Local Open Scope list_scope.
Local Open Scope R_scope.

(** Bounds that hold from some error on. *)
#[export] Instance eventually : mode.
Proof. refine {| md := fun d => 0 < d |}; [lra|]. intros a b A B. apply Rmin_glb_lt; assumption. Defined.

Lemma lin_inv y' y : lin y' y -> y <> 0 -> lin (fun e => / y' e) (/ y).
Proof.
  intros (L & d & L0 & D & HL) Ny. cbn in D. pose proof (Rabs_pos_lt y Ny) as Y.
  set (c := Rabs y / (2 * (L + 1))). assert (C : 0 < c) by (unfold c; apply Rdiv_lt_0_compat; lra).
  assert (W : 0 < / Rabs y) by (apply Rinv_0_lt_compat; exact Y).
  assert (W2 : 0 <= L * (2 * (/ Rabs y * / Rabs y))) by (apply Rmult_le_pos; [lra|]; apply Rmult_le_pos; [lra|]; apply Rmult_le_pos; lra).
  exists (L * (2 * (/ Rabs y * / Rabs y))), (Rmin d c). split; [exact W2|]. split; [cbn; apply Rmin_glb_lt; assumption|].
  intros e M. pose proof (Rmin_l d c). pose proof (Rmin_r d c). specialize (HL e ltac:(lra)). pose proof (e_lo e).
  assert (S : L * e_eps e <= Rabs y / 2).
  { assert (L * e_eps e <= (L + 1) * e_eps e) by lra. assert ((L + 1) * e_eps e <= (L + 1) * c) by (apply Rmult_le_compat_l; lra).
    replace ((L + 1) * c) with (Rabs y / 2) in * by (unfold c; field; lra). lra. }
  assert (B : Rabs y / 2 <= Rabs (y' e)).
  { pose proof (Rabs_triang (y' e) (y - y' e)) as Q. replace (y' e + (y - y' e)) with y in Q by ring. rewrite Rabs_minus_sym in HL. lra. }
  assert (Ny' : y' e <> 0) by (intros Z; rewrite Z, Rabs_R0 in B; lra).
  replace (/ y' e - / y) with ((y - y' e) * (/ y' e * / y)) by (field; auto).
  rewrite !Rabs_mult, !Rabs_inv, Rabs_minus_sym.
  assert (I : / Rabs (y' e) <= 2 * / Rabs y).
  { replace (2 * / Rabs y) with (/ (Rabs y / 2)) by (field; lra). apply Rinv_le_contravar; lra. }
  assert (0 < / Rabs (y' e)) by (apply Rinv_0_lt_compat; lra).
  assert (J : / Rabs (y' e) * / Rabs y <= 2 * / Rabs y * / Rabs y) by (apply Rmult_le_compat_r; lra).
  assert (0 <= / Rabs (y' e) * / Rabs y) by (apply Rmult_le_pos; lra).
  eapply Rle_trans; [apply Rmult_le_compat; [apply Rabs_pos|assumption|exact HL|exact J]|]. lra.
Qed.
Lemma lin_div x' x y' y : lin x' x -> lin y' y -> y <> 0 -> lin (fun e => x' e / y' e) (x / y).
Proof. intros. unfold Rdiv. apply lin_mul; [assumption|]. apply lin_inv; assumption. Qed.

Lemma olin_bind_eq {A B} (RA : (env -> A) -> A -> Prop) (RB : (env -> B) -> B -> Prop) F x G g :
  olin RA F x -> (forall a' a, x = Ret a -> RA a' a -> olin RB (fun e => G e (a' e)) (g a)) ->
  olin RB (fun e => obind (F e) (G e)) (obind x g).
Proof.
  intros HF HG. destruct x as [a|]; cbn in *.
  - destruct HF as (a' & H & Ra). apply olin_ext with (G := fun e => G e (a' e)); [|auto]. intros e. rewrite H. reflexivity.
  - intros e. rewrite HF. reflexivity.
Qed.
Lemma olin_loop_inv {St} (RS : (env -> St) -> St -> Prop) (B : env -> nat -> St -> outcome St) b (Inv : nat -> nat -> St -> Prop) :
  (forall k i s' s, Inv (S k) i s -> RS s' s -> olin RS (fun e => B e i (s' e)) (b i s)) ->
  (forall k i s s1, Inv (S k) i s -> b i s = Ret s1 -> Inv k (S i) s1) ->
  forall n i s' s, Inv n i s -> RS s' s -> olin RS (fun e => for_loop n i (B e) (s' e)) (for_loop n i b s).
Proof.
  intros H1 H2. induction n; intros i s' s Hi Hs; cbn [for_loop].
  - apply olin_ret, Hs.
  - apply olin_bind_eq with (RA := RS); [eapply H1; eauto|]. intros a' a Ea Ha. apply IHn; eauto.
Qed.

(** * The LDL solver *)
Lemma d_step_lin L' L i j D' D : mlin L' L -> llin lin D' D ->
  olin (llin lin) (fun e => fl_ldl_d_step (e_rnd e) (L' e) i j (D' e)) (ldl_d_step L i j D).
Proof.
  intros HL HD. unfold fl_ldl_d_step, ldl_d_step.
  apply (olin_bind lin); [apply olin_aget, HD|]. intros a' a Ha.
  apply (olin_bind lin); [apply olin_aget, HD|]. intros b' b Hb.
  apply (olin_bind lin); [apply olin_mget, HL|]. intros l' l Hl.
  apply olin_aset; [exact HD|]. apply lin_rnd, lin_sub; [exact Ha|]. apply lin_rnd, lin_mul; [|exact Hl]. apply lin_rnd, lin_mul; assumption.
Qed.
Lemma l_step_lin D' D i j k L' L : llin lin D' D -> (forall x, aget D i = Ret x -> x <> 0) -> mlin L' L ->
  olin mlin (fun e => fl_ldl_l_step (e_rnd e) (D' e) i j k (L' e)) (ldl_l_step D i j k L).
Proof.
  intros HD Nz HL. unfold fl_ldl_l_step, ldl_l_step.
  apply (olin_bind lin); [apply olin_mget, HL|]. intros x' x Hx.
  apply (olin_bind lin); [apply olin_mget, HL|]. intros a' a Ha.
  apply (olin_bind lin); [apply olin_mget, HL|]. intros b' b Hb.
  apply (olin_bind lin); [apply olin_aget, HD|]. intros dk' dk Hdk.
  apply (olin_bind_eq lin); [apply olin_aget, HD|]. intros di' di Edi Hdi.
  apply olin_mset; [exact HL|]. apply lin_rnd, lin_sub; [exact Hx|]. apply lin_rnd, lin_div; [|exact Hdi|apply Nz, Edi].
  apply lin_rnd, lin_mul; [|exact Hdk]. apply lin_rnd, lin_mul; assumption.
Qed.
Lemma col_lin A' A D' D i j L' L : mlin A' A -> llin lin D' D -> (forall x, aget D i = Ret x -> x <> 0) -> mlin L' L ->
  olin mlin (fun e => fl_ldl_col_body (e_rnd e) (A' e) (D' e) i j (L' e)) (ldl_col_body A D i j L).
Proof.
  intros HA HD Nz HL. unfold fl_ldl_col_body, ldl_col_body. destruct (Nat.ltb i j); [|apply olin_ret, HL].
  apply (olin_bind lin); [apply olin_mget, HA|]. intros a' a Ha.
  apply (olin_bind_eq lin); [apply olin_aget, HD|]. intros di' di Edi Hdi.
  apply (olin_bind mlin); [apply olin_mset; [exact HL|apply lin_rnd, lin_div; [exact Ha|exact Hdi|apply Nz, Edi]]|]. intros L2' L2 HL2.
  apply (olin_loop mlin (fun e => fl_ldl_l_step (e_rnd e) (D' e) i j) (ldl_l_step D i j) i (fun k s' s K => l_step_lin D' D i j k s' s HD Nz K) 0%nat L2' L2 HL2).
Qed.

Lemma aset_other (D D' : list R) i x r : aset D i x = Ret D' -> r <> i -> nth r D' 0 = nth r D 0.
Proof. unfold aset. destruct (Nat.ltb i (length D)); [|discriminate]. intros E Ne. injection E as <-. apply nth_upd_other. auto. Qed.
Lemma d_loop_other L i r : r <> i -> forall n k D D', for_loop n k (ldl_d_step L i) D = Ret D' -> nth r D' 0 = nth r D 0.
Proof.
  intros Ne. induction n; intros k D D' E; cbn [for_loop] in E; [injection E as <-; reflexivity|].
  destruct (ldl_d_step L i k D) as [D1|] eqn:E1; [|discriminate]. cbn [obind] in E. rewrite (IHn _ _ _ E).
  unfold ldl_d_step in E1. destruct (aget D i); [|discriminate]. cbn [obind] in E1. destruct (aget D k); [|discriminate]. cbn [obind] in E1.
  destruct (mget L i k); [|discriminate]. cbn [obind] in E1. eapply aset_other; eauto.
Qed.
Lemma factor_other A n i L D s1 r : ldl_factor_body A n i (L, D) = Ret s1 -> r <> i -> nth r (snd s1) 0 = nth r D 0.
Proof.
  unfold ldl_factor_body. intros E Ne. destruct (mget A i i) as [a|]; [|discriminate]. cbn [obind] in E.
  destruct (aset D i a) as [D1|] eqn:E1; [|discriminate]. cbn [obind] in E.
  destruct (for_loop i 0 (ldl_d_step L i) D1) as [D2|] eqn:E2; [|discriminate]. cbn [obind] in E.
  destruct (for_loop (n - 1) 1 _ L) as [L2|]; [|discriminate]. cbn [obind] in E. injection E as <-. cbn [snd].
  rewrite (d_loop_other L i r Ne _ _ _ _ E2). eapply aset_other; eauto.
Qed.
Lemma factor_keeps A n r : forall k i s st, for_loop k i (ldl_factor_body A n) s = Ret st -> (r < i)%nat -> nth r (snd st) 0 = nth r (snd s) 0.
Proof.
  induction k; intros i s st E Hr; cbn [for_loop] in E; [injection E as <-; reflexivity|].
  destruct (ldl_factor_body A n i s) as [s1|] eqn:E1; [|discriminate]. cbn [obind] in E. rewrite (IHk _ _ _ E) by lia.
  destruct s as [L D]. apply (factor_other A n i L D s1 r E1). lia.
Qed.

Definition ldlin (s' : env -> Mat * list R) (s : Mat * list R) : Prop :=
  exists L' L D' D, (forall e, s' e = (L' e, D' e)) /\ s = (L, D) /\ mlin L' L /\ llin lin D' D.
Definition nonzero (D : list R) : Prop := forall i x, aget D i = Ret x -> x <> 0.
(** the rest of the factorisation ends well *)
Definition ends (A : Mat) (n k i : nat) (s : Mat * list R) : Prop :=
  exists st, for_loop k i (ldl_factor_body A n) s = Ret st /\ forall r, (r < length (snd st))%nat -> nth r (snd st) 0 <> 0.

Lemma d_loop_length L i : forall n k D D', for_loop n k (ldl_d_step L i) D = Ret D' -> length D' = length D.
Proof.
  induction n; intros k D D' E; cbn [for_loop] in E; [injection E as <-; reflexivity|].
  destruct (ldl_d_step L i k D) as [D1|] eqn:E1; [|discriminate]. cbn [obind] in E. rewrite (IHn _ _ _ E).
  unfold ldl_d_step in E1. destruct (aget D i); [|discriminate]. cbn [obind] in E1. destruct (aget D k); [|discriminate]. cbn [obind] in E1.
  destruct (mget L i k); [|discriminate]. cbn [obind] in E1. unfold aset in E1. destruct (Nat.ltb i (length D)); [|discriminate]. injection E1 as <-. apply upd_length.
Qed.
Lemma factor_length A n : forall k i s st, for_loop k i (ldl_factor_body A n) s = Ret st -> length (snd st) = length (snd s).
Proof.
  induction k; intros i s st E; cbn [for_loop] in E; [injection E as <-; reflexivity|].
  destruct (ldl_factor_body A n i s) as [s1|] eqn:E1; [|discriminate]. cbn [obind] in E. rewrite (IHk _ _ _ E). destruct s as [L D].
  unfold ldl_factor_body in E1. destruct (mget A i i) as [a|]; [|discriminate]. cbn [obind] in E1.
  destruct (aset D i a) as [D1|] eqn:E2; [|discriminate]. cbn [obind] in E1.
  destruct (for_loop i 0 (ldl_d_step L i) D1) as [D2|] eqn:E3; [|discriminate]. cbn [obind] in E1.
  destruct (for_loop (n - 1) 1 _ L) as [L2|]; [|discriminate]. cbn [obind] in E1. injection E1 as <-. cbn [snd].
  rewrite (d_loop_length _ _ _ _ _ _ E3). unfold aset in E2. destruct (Nat.ltb i (length D)); [|discriminate]. injection E2 as <-. apply upd_length.
Qed.

Lemma factor_lin A' A n k i s' s : mlin A' A -> ends A n (S k) i s -> ldlin s' s ->
  olin ldlin (fun e => fl_ldl_factor_body (e_rnd e) (A' e) n i (s' e)) (ldl_factor_body A n i s).
Proof.
  intros HA (st & Est & Nz) (L' & L & D' & D & E & -> & HL & HD).
  apply olin_ext with (G := fun e => fl_ldl_factor_body (e_rnd e) (A' e) n i (L' e, D' e)); [intros e; rewrite E; reflexivity|].
  cbn [for_loop] in Est. destruct (ldl_factor_body A n i (L, D)) as [s1|] eqn:E1; [|discriminate]. rewrite <- E1. cbn [obind] in Est.
  unfold fl_ldl_factor_body, ldl_factor_body.
  apply (olin_bind_eq lin); [apply olin_mget, HA|]. intros a' a Ea Ha.
  apply (olin_bind_eq (llin lin)); [apply olin_aset; assumption|]. intros D1' D1 ED1 HD1.
  apply (olin_bind_eq (llin lin)).
  { apply (olin_loop (llin lin) (fun e => fl_ldl_d_step (e_rnd e) (L' e) i) (ldl_d_step L i) i (fun k s' s K => d_step_lin L' L i k s' s HL K) 0%nat D1' D1 HD1). }
  intros D2' D2 ED2 HD2.
  assert (Z : forall x, aget D2 i = Ret x -> x <> 0).
  { assert (S1 : snd s1 = D2).
    { unfold ldl_factor_body in E1. rewrite Ea in E1. cbn [obind] in E1. rewrite ED1 in E1. cbn [obind] in E1. rewrite ED2 in E1. cbn [obind] in E1.
      destruct (for_loop (n - 1) 1 _ L) as [L2|]; [|discriminate]. cbn [obind] in E1. injection E1 as <-. reflexivity. }
    intros x Hx. pose proof (factor_keeps A n i _ _ _ _ Est ltac:(lia)) as Kp. pose proof (factor_length A n _ _ _ _ Est) as Ln. rewrite S1 in Kp, Ln.
    assert (Hi : (i < length D2)%nat).
    { unfold aget in Hx. destruct (nth_error D2 i) eqn:N; [|discriminate]. apply nth_error_Some. congruence. }
    rewrite agetR in Hx by exact Hi. injection Hx as <-. rewrite <- Kp. apply Nz. lia. }
  apply (olin_bind mlin).
  { apply (olin_loop mlin (fun e => fl_ldl_col_body (e_rnd e) (A' e) (D2' e) i) (ldl_col_body A D2 i) (n - 1)
      (fun j s' s K => col_lin A' A D2' D2 i j s' s HA HD2 Z K) 1%nat L' L HL). }
  intros L2' L2 HL2. apply (olin_ret ldlin (fun e => (L2' e, D2' e))). exists L2', L2, D2', D2. auto.
Qed.
Lemma fwd_step_lin L' L i j y' y : mlin L' L -> llin lin y' y -> olin (llin lin) (fun e => fl_ldl_fwd_step (e_rnd e) (L' e) i j (y' e)) (ldl_fwd_step L i j y).
Proof.
  intros HL Hy. unfold fl_ldl_fwd_step, ldl_fwd_step.
  apply (olin_bind lin); [apply olin_aget, Hy|]. intros a' a Ha. apply (olin_bind lin); [apply olin_mget, HL|]. intros l' l Hl.
  apply (olin_bind lin); [apply olin_aget, Hy|]. intros b' b Hb. apply olin_aset; [exact Hy|]. apply lin_rnd, lin_sub; [exact Ha|]. apply lin_rnd, lin_mul; assumption.
Qed.
Lemma fwd_body_lin L' L v' v i y' y : mlin L' L -> llin lin v' v -> llin lin y' y ->
  olin (llin lin) (fun e => fl_ldl_fwd_body (e_rnd e) (L' e) (v' e) i (y' e)) (ldl_fwd_body L v i y).
Proof.
  intros HL Hv Hy. unfold fl_ldl_fwd_body, ldl_fwd_body.
  apply (olin_bind lin); [apply olin_aget, Hv|]. intros a' a Ha. apply (olin_bind (llin lin)); [apply olin_aset; assumption|]. intros y1' y1 Hy1.
  apply (olin_loop (llin lin) (fun e => fl_ldl_fwd_step (e_rnd e) (L' e) i) (ldl_fwd_step L i) i (fun k s' s K => fwd_step_lin L' L i k s' s HL K) 0%nat y1' y1 Hy1).
Qed.
Lemma back_step_lin L' L i j y' y : mlin L' L -> llin lin y' y -> olin (llin lin) (fun e => fl_ldl_back_step (e_rnd e) (L' e) i j (y' e)) (ldl_back_step L i j y).
Proof.
  intros HL Hy. unfold fl_ldl_back_step, ldl_back_step.
  apply (olin_bind lin); [apply olin_aget, Hy|]. intros a' a Ha. apply (olin_bind lin); [apply olin_mget, HL|]. intros l' l Hl.
  apply (olin_bind lin); [apply olin_aget, Hy|]. intros b' b Hb. apply olin_aset; [exact Hy|]. apply lin_rnd, lin_sub; [exact Ha|]. apply lin_rnd, lin_mul; assumption.
Qed.
Lemma back_body_lin L' L D' D y' y n t q' q : mlin L' L -> llin lin D' D -> nonzero D -> llin lin y' y -> llin lin q' q ->
  olin (llin lin) (fun e => fl_ldl_back_body (e_rnd e) (L' e) (D' e) (y' e) n t (q' e)) (ldl_back_body L D y n t q).
Proof.
  intros HL HD Nz Hy Hq. unfold fl_ldl_back_body, ldl_back_body. cbv zeta.
  apply (olin_bind lin); [apply olin_aget, Hy|]. intros a' a Ha. apply (olin_bind_eq lin); [apply olin_aget, HD|]. intros d' d Ed Hd.
  apply (olin_bind (llin lin)); [apply olin_aset; [exact Hq|apply lin_rnd, lin_div; [exact Ha|exact Hd|eapply Nz; exact Ed]]|]. intros q1' q1 Hq1.
  apply (olin_loop (llin lin) (fun e => fl_ldl_back_step (e_rnd e) (L' e) (n - 1 - t)) (ldl_back_step L (n - 1 - t)) _ (fun k s' s K => back_step_lin L' L _ k s' s HL K) _ q1' q1 Hq1).
Qed.

Lemma llin_length {A} (RA : (env -> A) -> A -> Prop) l' l : llin RA l' l -> forall e, length (l' e) = length l.
Proof. intros (L & E & H) e. rewrite E, map_length. apply (Forall2_len _ _ _ H). Qed.

Theorem ldl_lin A' A v' v L D t q n : mlin A' A -> llin lin v' v ->
  mrows A = n -> mcols A = n -> length v = n -> mrows L = n -> mcols L = n -> length D = n -> length t = n -> length q = n -> pivots_ok n (mentry A) ->
  exists L2 D2 y x x', ldl_solver A v L D t q = Ret (E_NOERROR, (L2, D2, y, x)) /\ length x = n /\ llin lin x' x /\
    forall e, fl_ldl_solver (e_rnd e) (A' e) (v' e) L D t q = Ret (E_NOERROR, x' e).
Proof.
  intros HA Hv HA1 HA2 Lv HL1 HL2 HD Ht Hq (l & d & U & F & Z).
  destruct (factor_loop A n (conj HA1 HA2) L D HL1 HL2 HD) as ([L1 D1] & EF & Fa). pose proof Fa as (A1 & A2 & A3 & _ & _).
  pose proof (factored_unique A n L1 D1 l d HA1 HA2 Fa U F Z) as Un.
  assert (Nz : forall r, (r < n)%nat -> nth r D1 0 <> 0) by (intros r Hr; rewrite (proj1 (Un r Hr)); apply Z, Hr).
  destruct (fwd_loop A n (conj HA1 HA2) L1 v t A1 A2 Lv Ht) as (y & EY & Hy & _).
  destruct (back_loop A n (conj HA1 HA2) L1 D1 y q A1 A2 A3 Hy Hq) as (x & EX & Hx & _).
  assert (OF : olin ldlin (fun e => for_loop n 0 (fl_ldl_factor_body (e_rnd e) (A' e) n) (L, D)) (for_loop n 0 (ldl_factor_body A n) (L, D))).
  { apply (olin_loop_inv ldlin (fun e => fl_ldl_factor_body (e_rnd e) (A' e) n) (ldl_factor_body A n) (ends A n)) with (s' := fun _ => (L, D)).
    - intros k i s' s K1 K2. apply (factor_lin A' A n k); assumption.
    - intros k i s s1 (st & E & K) Es. cbn [for_loop] in E. rewrite Es in E. cbn [obind] in E. exists st. auto.
    - exists (L1, D1). split; [exact EF|]. cbn [snd]. rewrite A3. exact Nz.
    - exists (fun _ => L), L, (fun _ => D), D. split; [reflexivity|]. split; [reflexivity|]. split; [apply mlin_const|apply llin_const, lin_const]. }
  rewrite EF in OF. destruct OF as (s' & ES & (L1' & L1a & D1' & D1a & Es' & X & HL & HD')). injection X as <- <-.
  assert (NZ : nonzero D1).
  { intros i a Ha. assert (Hi : (i < length D1)%nat).
    { unfold aget in Ha. destruct (nth_error D1 i) eqn:N; [|discriminate]. apply nth_error_Some. congruence. }
    rewrite agetR in Ha by exact Hi. injection Ha as <-. apply Nz. lia. }
  pose proof (olin_loop (llin lin) (fun e => fl_ldl_fwd_body (e_rnd e) (L1' e) (v' e)) (ldl_fwd_body L1 v) n
    (fun k s' s K => fwd_body_lin L1' L1 v' v k s' s HL Hv K) 0%nat (fun _ => t) t (llin_const lin t lin_const)) as OY.
  rewrite EY in OY. destruct OY as (y' & EY' & HY).
  pose proof (olin_loop (llin lin) (fun e => fl_ldl_back_body (e_rnd e) (L1' e) (D1' e) (y' e) n) (ldl_back_body L1 D1 y n) n
    (fun k s' s K => back_body_lin L1' L1 D1' D1 y' y n k s' s HL HD' NZ HY K) 0%nat (fun _ => q) q (llin_const lin q lin_const)) as OX.
  rewrite EX in OX. destruct OX as (x' & EX' & HX).
  do 3 eexists. exists x, x'. split; [|split; [exact Hx|split; [exact HX|]]].
  - unfold ldl_solver. rewrite HA1, HA2, Lv, HL1, HL2, HD, Ht, Hq, !Nat.eqb_refl. cbn [andb negb]. rewrite EF. cbn [obind]. rewrite EY. cbn [obind]. rewrite EX. cbn [obind].
    rewrite (diag_loop A n (conj HA1 HA2) L1 A1 A2). cbn [obind]. rewrite (upper_loop A n (conj HA1 HA2)) by reflexivity. cbn [obind]. reflexivity.
  - intros e. unfold fl_ldl_solver. destruct HA as (B1 & B2 & _). rewrite B1, B2, (llin_length lin v' v Hv e). rewrite HA1, HA2, Lv, HL1, HL2, HD, Ht, Hq, !Nat.eqb_refl. cbn [andb negb].
    rewrite ES, Es'. cbn [obind]. rewrite EY'. cbn [obind]. rewrite EX'. reflexivity.
Qed.

(** * Forward dynamics *)
Lemma row_lin n H' H i m' m : mlin H' H -> mlin m' m ->
  olin mlin (fun e => for_loop n 0 (fun j m => let! x := mget (H' e) i j in mset m i j x) (m' e)) (for_loop n 0 (fun j m => let! x := mget H i j in mset m i j x) m).
Proof.
  intros HH Hm. apply (olin_loop mlin (fun e j m => let! x := mget (H' e) i j in mset m i j x) (fun j m => let! x := mget H i j in mset m i j x) n) with (s' := m'); [|exact Hm].
  intros j s' s Hs. apply (olin_bind lin); [apply olin_mget, HH|]. intros x' x Hx. apply olin_mset; assumption.
Qed.
Lemma load_lin n H' H tau' tau T' T He Te : mlin H' H -> llin lin tau' tau -> llin lin T' T ->
  olin ldlin (fun e => for_loop n 0 (fun i hr =>
          let '(He, Te) := hr in
          let! ti := aget (tau' e) i in
          let! zi := aget (T' e) i in
          let! Te' := aset Te i (e_rnd e (ti - zi)) in
          let! He' := for_loop n 0 (fun j m => let! x := mget (H' e) i j in mset m i j x) He in
          Ret (He', Te')) (He, Te))
    (for_loop n 0 (fun i hr =>
          let '(He, Te) := hr in
          let! ti := aget tau i in
          let! zi := aget T i in
          let! Te' := aset Te i (ti - zi) in
          let! He' := for_loop n 0 (fun j m => let! x := mget H i j in mset m i j x) He in
          Ret (He', Te')) (He, Te)).
Proof.
  intros HH Hu HT.
  apply (olin_loop ldlin (fun e i hr =>
          let '(He, Te) := hr in
          let! ti := aget (tau' e) i in
          let! zi := aget (T' e) i in
          let! Te' := aset Te i (e_rnd e (ti - zi)) in
          let! He' := for_loop n 0 (fun j m => let! x := mget (H' e) i j in mset m i j x) He in
          Ret (He', Te')) _ n) with (s' := fun _ => (He, Te)).
  - intros i s' s (L' & L & D' & D & E & -> & HL & HD).
    eapply olin_ext; [intros e; rewrite E; reflexivity|]. cbv beta iota.
    apply (olin_bind lin); [apply olin_aget, Hu|]. intros ti' ti Hti. apply (olin_bind lin); [apply olin_aget, HT|]. intros z' z Hz.
    apply (olin_bind (llin lin)); [apply olin_aset; [exact HD|apply lin_rnd, lin_sub; [exact Hti|exact Hz]]|]. intros D2' D2 HD2.
    apply (olin_bind mlin); [apply row_lin; assumption|]. intros L2' L2 HL2.
    apply (olin_ret ldlin (fun e => (L2' e, D2' e))). exists L2', L2, D2', D2. auto.
  - exists (fun _ => He), He, (fun _ => Te), Te. split; [reflexivity|]. split; [reflexivity|]. split; [apply mlin_const|apply llin_const, lin_const].
Qed.

Theorem fd_lin g c0 c st q qd tau' tau fext qdd M : chain_ok c -> same_counts c0 c -> fd_inv g c0 st -> fd_current c st -> llin lin tau' tau ->
  length q = ch_nj c -> length qd = ch_nj c -> length tau = ch_nj c -> length qdd = ch_nj c -> length fext = ch_ns c ->
  dyn_JntToMass c (dyn_make c0 g) q (fd_H st) = Ret (E_NOERROR, M) -> pivots_ok (ch_nj c) (mentry M) ->
  exists out st' x', fd_CartToJnt c st q qd tau fext qdd = Ret (E_NOERROR, out, st') /\ llin lin x' out /\
    forall e, fl_fd_CartToJnt (e_rnd e) (e_sin e) (e_cos e) c st q qd (tau' e) fext qdd = Ret (E_NOERROR, x' e).
Proof.
  intros Hok [N1 N2] I [F1 F2] Hu Hq Hqd Ht Hqdd Hf EM Pv. destruct I as (I1 & I2 & B1 & B2 & B3 & B4 & B5 & B6 & B7 & B8 & B9 & B10 & B11). rewrite N1 in *.
  assert (Cd : dyn_current c (dyn_make c0 g)) by (split; assumption).
  assert (Cr : rne_current c (rne_make c0 g)) by (split; assumption).
  destruct (mass_result c (dyn_make c0 g) q (fd_H st) Hok Cd Hq B1 B2) as (M0 & EM0 & M1 & M2 & _). rewrite EM in EM0. injection EM0 as <-.
  destruct (zero_loop (ch_nj c) qdd Hqdd) as (z & EZ & Lz & _).
  destruct (rne_result c (rne_make c0 g) q qd z fext (fd_T st) Hok Cr Hq Hqd Lz B3 Hf) as (T0 & ET & LT & _).
  destruct (load_loop (ch_nj c) M tau T0 (fd_Heig st) (fd_Teig st) M1 M2 Ht LT B4 B5 B6) as (He & Te & EL & C1 & C2 & C3 & C4 & C5).
  pose proof (mass_lin c (dyn_make c0 g) q (fd_H st)) as OM. rewrite EM in OM. destruct OM as (m' & Em & (zz & M' & Ma & Em' & X & HM)). injection X as <- <-.
  pose proof (rne_lin c (rne_make c0 g) q qd z fext (fd_T st)) as OT. rewrite ET in OT. destruct OT as (t' & Et & (zz & T' & Ta & Et' & X & HT)). injection X as <- <-.
  pose proof (load_lin (ch_nj c) M' M tau' tau T' T0 (fd_Heig st) (fd_Teig st) HM Hu HT) as OL. rewrite EL in OL. destruct OL as (l' & El & (He' & Hea & Te' & Tea & El' & X & HHe & HTe)). injection X as <- <-.
  assert (P' : pivots_ok (ch_nj c) (mentry He)) by (apply (pivots_ext _ (mentry M)); [intros a b Ha Hb; symmetry; apply C4; auto|exact Pv]).
  destruct (ldl_lin He' He Te' Te (fd_L st) (fd_D st) (fd_r st) (fd_acc st) (ch_nj c) HHe HTe C1 C2 C3 B7 B8 B9 B10 B11 P') as (L2 & D2 & y & x & x' & EX & Lx & Hx & EX').
  exists x. eexists. exists x'. split; [|split; [exact Hx|]].
  - unfold fd_CartToJnt. rewrite F1, F2, Hq, Hqd, Ht, Hqdd, Hf, !Nat.eqb_refl. cbn [andb orb negb]. cbv zeta. rewrite I1, I2.
    rewrite EM. cbn [obind]. change (E_NOERROR <? 0)%Z with false. cbn iota. rewrite EZ. cbn [obind]. rewrite ET. cbn [obind]. change (E_NOERROR <? 0)%Z with false. cbn iota.
    rewrite EL. cbn [obind]. rewrite EX. cbn [obind]. rewrite copy_loop by assumption. cbn [obind]. reflexivity.
  - intros e. unfold fl_fd_CartToJnt. rewrite F1, F2, (llin_length lin tau' tau Hu e), Hq, Hqd, Ht, Hqdd, Hf, !Nat.eqb_refl. cbn [andb orb negb]. cbv zeta. rewrite I1, I2.
    rewrite Em, Em'. cbn [obind]. change (E_NOERROR <? 0)%Z with false. cbn iota. rewrite EZ. cbn [obind]. rewrite Et, Et'. cbn [obind]. change (E_NOERROR <? 0)%Z with false. cbn iota.
    rewrite El, El'. cbn [obind]. rewrite EX'. cbn [obind]. rewrite copy_loop by (try rewrite (llin_length lin x' x Hx e); assumption). reflexivity.
Qed.
