(** Proofs about the hybrid dynamics solver, part 1: runs and the equations of motion. *)
From Coq Require Import String Reals List Arith Lia Lra ZArith Bool.
From Verif Require Import FramesModel FramesSpec FramesProofs FrameOpsProofs RotationProofs Outcome LoopProofs InertiaModel InertiaSpec
  InertiaProofs DualModel KinModel KinSpec KinProofs JacProofs LinModel LinSpec SumProofs DynModel DynSpec SpatialProofs RneProofs DynProofs
  LmaModel VelIkModel VelIkSpec VelIkLin HdModel HdSpec HdAbs HdLoops HdBridge.
Import ListNotations.
Local Open Scope R_scope.

Lemma hd_reach_inv svd acc nc c s : hd_reach svd acc nc c s -> hd_acc s = acc /\ hd_nc s = nc /\ length (hd_res s) = (hd_ns s + 1)%nat.
Proof.
  induction 1 as [c|c c' s H IH|c s H IH|c s q qd qdd alfa beta fext ff ct code qdd' ct' s' Hc H IH E].
  - cbn [hd_make hd_acc hd_nc hd_res hd_ns]. rewrite repeat_length. auto.
  - exact IH.
  - destruct IH as (A & B & L). cbn [hd_update hd_acc hd_nc hd_res hd_ns]. split; [exact A|]. split; [exact B|].
    unfold vec_resize. rewrite app_length, firstn_length, repeat_length. lia.
  - destruct IH as (A & B & L). unfold hd_CartToJnt in E. cbv zeta in E.
    destruct (negb (Nat.eqb (hd_ns s) (ch_ns c))); [injection E as <- <- <- <-; auto|].
    match type of E with (if ?b then _ else _) = _ => destruct b; [injection E as <- <- <- <-; auto|] end.
    match type of E with (if ?b then _ else _) = _ => destruct b; [injection E as <- <- <- <-; auto|] end.
    apply obind_Ret_inv in E. destruct E as ([[j1 Ft] res1] & E1 & E).
    apply obind_Ret_inv in E. destruct E as ([j2 res2] & E2 & E).
    apply obind_Ret_inv in E. destruct E as (s0 & E3 & E).
    apply obind_Ret_inv in E. destruct E as ([[[[j4 res3] qd4] ct4] tot4] & E4 & E). injection E as _ _ _ <-. cbn [hd_acc hd_nc hd_res hd_ns].
    split; [exact A|]. split; [exact B|].
    assert (L1 : length res1 = length (hd_res s)).
    { refine (for_loop_pinv (fun k (st : nat * Frame * list seginfo) => length (snd st) = length (hd_res s)) _ _ _ _ _ _ _ E1); [|reflexivity].
      intros k [[j F] rs] st' _ Hl Eb. cbn [snd] in Hl. unfold hd_init_body in Eb.
      repeat (apply obind_Ret_inv in Eb; destruct Eb as (? & ? & Eb)). injection Eb as <-. cbn [snd].
      match goal with K : aset rs _ _ = Ret _ |- _ => apply aset_Ret_inv in K; destruct K as [_ ->] end. rewrite upd_length. exact Hl. }
    assert (L2 : length res2 = length (hd_res s)).
    { refine (for_loop_pinv (fun k (st : Z * list seginfo) => length (snd st) = length (hd_res s)) _ _ _ _ _ _ _ E2); [|exact L1].
      intros k [j rs] st' _ Hl Eb. cbn [snd] in Hl. unfold hd_down_body in Eb.
      apply obind_Ret_inv in Eb. destruct Eb as (? & ? & Eb). apply obind_Ret_inv in Eb. destruct Eb as (? & ? & Eb).
      destruct (Nat.eqb (hd_ns s - k) 0);
        repeat (apply obind_Ret_inv in Eb; destruct Eb as (? & ? & Eb)); injection Eb as <-; cbn [snd];
        match goal with K : aset rs _ _ = Ret _ |- _ => apply aset_Ret_inv in K; destruct K as [_ ->] end; rewrite upd_length; exact Hl. }
    assert (L3 : length res3 = length (hd_res s)).
    { refine (for_loop_pinv (fun k (st : nat * list seginfo * list R * list R * list R) => let '(_, rs, _, _, _) := st in length rs = length (hd_res s)) _ _ _ _ _ _ _ E4); [|exact L2].
      intros k [[[[j rs] qa] ca] ta] st' _ Hl Eb. unfold hd_final_body in Eb.
      repeat (apply obind_Ret_inv in Eb; destruct Eb as (? & ? & Eb)). injection Eb as <-.
      match goal with K : aset rs _ _ = Ret _ |- _ => apply aset_Ret_inv in K; destruct K as [_ ->] end. rewrite upd_length. exact Hl. }
    lia.
Qed.

(** * A successful run *)
Definition hd_facts (svd : Z -> Mat -> Decomp) (c : Chain) (acc : Twist) (nc : nat) (q qd : list R) (alfa : list Twist) (beta : list R) (fext : list Wrench) (ff : list R)
    (qdd ct : list R) (s' : hd) (a : nat -> siA) (res2 : list seginfo) : Prop :=
  (forall m, (m < ch_ns c)%nat -> a (S m) = SA c q qd fext m) /\
  swept c nc alfa ff a (tip_frame c q (ch_ns c)) 0 res2 /\
  hd_ns s' = ch_ns c /\ hd_nc s' = nc /\ hd_acc s' = acc /\ hd_nu s' = hd_constraint svd nc acc beta (rget res2 0) /\
  length (hd_res s') = (ch_ns c + 1)%nat /\ length qdd = ch_nj c /\ length ct = ch_nj c /\ length (hd_total s') = ch_nj c /\
  (forall i, (i <= ch_ns c)%nat -> si_a (rget (hd_res s') i) = si_a (rget res2 i) /\ si_r (rget (hd_res s') i) = si_r (rget res2 i)) /\
  forall m, (m < ch_ns c)%nat -> fin_step acc (hd_nu s') (hd_res s') qdd ct (hd_total s') m.

Lemma negb_eqb a b : a = b -> negb (Nat.eqb a b) = false. Proof. intros ->. rewrite Nat.eqb_refl. reflexivity. Qed.
Lemma hd_sizes_bools c nc s q qd qdd alfa beta fext ff ct : hd_ns s = ch_ns c -> hd_nc s = nc ->
  (negb (Nat.eqb (length q) (ch_nj c)) || negb (Nat.eqb (length qd) (ch_nj c)) || negb (Nat.eqb (length qdd) (ch_nj c)) ||
     negb (Nat.eqb (length ff) (ch_nj c)) || negb (Nat.eqb (length ct) (ch_nj c)) || negb (Nat.eqb (length fext) (hd_ns s)) = false /\
   negb (Nat.eqb (length alfa) (hd_nc s)) || negb (Nat.eqb (length beta) (hd_nc s)) = false) <->
  hd_sizes c nc q qd qdd alfa beta fext ff ct.
Proof.
  intros En Ec. unfold hd_sizes. rewrite En, Ec, !orb_false_iff, !negb_false_iff, !Nat.eqb_eq. tauto.
Qed.

Lemma hd_codes svd c s q qd qdd alfa beta fext ff ct : let nc := hd_nc s in
  (hd_ns s <> ch_ns c -> hd_CartToJnt svd c s q qd qdd alfa beta fext ff ct = Ret (E_NOT_UP_TO_DATE, qdd, ct, s)) /\
  (hd_ns s = ch_ns c -> ~ hd_sizes c nc q qd qdd alfa beta fext ff ct ->
     hd_CartToJnt svd c s q qd qdd alfa beta fext ff ct = Ret (E_SIZE_MISMATCH, qdd, ct, s)).
Proof.
  intros nc. split.
  - intros Ne. unfold hd_CartToJnt. cbv zeta. apply Nat.eqb_neq in Ne. rewrite Ne. reflexivity.
  - intros En Ns. unfold hd_CartToJnt. cbv zeta. rewrite (negb_eqb _ _ En). rewrite <- (hd_sizes_bools c nc s) in Ns by auto.
    match goal with |- (if ?b then _ else _) = _ => destruct b; [reflexivity|] end.
    match goal with |- (if ?b then _ else _) = _ => destruct b; [reflexivity|] end. exfalso. apply Ns. auto.
Qed.

(** the code of a run that succeeds, and what it means *)
Lemma hd_noerror svd c s q qd qdd alfa beta fext ff ct qdd' ct' s' :
  hd_CartToJnt svd c s q qd qdd alfa beta fext ff ct = Ret (E_NOERROR, qdd', ct', s') ->
  hd_ns s = ch_ns c /\ hd_sizes c (hd_nc s) q qd qdd alfa beta fext ff ct.
Proof.
  intros E. destruct (hd_codes svd c s q qd qdd alfa beta fext ff ct) as [H1 H2]. cbv zeta in H2.
  destruct (Nat.eq_dec (hd_ns s) (ch_ns c)) as [En|Ne]; [|rewrite (H1 Ne) in E; discriminate E].
  split; [exact En|].
  destruct (negb (Nat.eqb (length q) (ch_nj c)) || negb (Nat.eqb (length qd) (ch_nj c)) || negb (Nat.eqb (length qdd) (ch_nj c)) ||
     negb (Nat.eqb (length ff) (ch_nj c)) || negb (Nat.eqb (length ct) (ch_nj c)) || negb (Nat.eqb (length fext) (hd_ns s))) eqn:B1.
  - assert (N : ~ hd_sizes c (hd_nc s) q qd qdd alfa beta fext ff ct) by (rewrite <- (hd_sizes_bools c (hd_nc s) s) by auto; rewrite B1; intros [K _]; discriminate K).
    rewrite (H2 En N) in E. discriminate E.
  - destruct (negb (Nat.eqb (length alfa) (hd_nc s)) || negb (Nat.eqb (length beta) (hd_nc s))) eqn:B2.
    + assert (N : ~ hd_sizes c (hd_nc s) q qd qdd alfa beta fext ff ct) by (rewrite <- (hd_sizes_bools c (hd_nc s) s) by auto; rewrite B2; intros [_ K]; discriminate K).
      rewrite (H2 En N) in E. discriminate E.
    + apply (hd_sizes_bools c (hd_nc s) s); auto.
Qed.
Lemma hd_sized svd c s q qd qdd alfa beta fext ff ct : hd_ns s = ch_ns c -> hd_sizes c (hd_nc s) q qd qdd alfa beta fext ff ct ->
  hd_CartToJnt svd c s q qd qdd alfa beta fext ff ct =
    (let! (_, Ft, res1) := for_loop (ch_ns c) 0 (hd_init_body c (hd_acc s) q qd fext) (0%nat, f_id, hd_res s) in
     let! (_, res2) := for_loop (ch_ns c + 1) 0 (hd_down_body c (ch_ns c) (hd_nc s) Ft alfa ff) ((Z.of_nat (ch_nj c) - 1)%Z, res1) in
     let! s0 := aget res2 0 in
     let nu := hd_constraint svd (hd_nc s) (hd_acc s) beta s0 in
     let! (_, res3, qdd', ct', tot') := for_loop (ch_ns c) 1 (hd_final_body c (hd_acc s) nu) (0%nat, res2, qdd, ct, hd_total s) in
     Ret (E_NOERROR, qdd', ct', mkHD (ch_ns c) (hd_nc s) (hd_acc s) res3 nu tot')).
Proof.
  intros En Hs. apply (hd_sizes_bools c (hd_nc s) s) in Hs; [|exact En|reflexivity]. destruct Hs as [B1 B2].
  unfold hd_CartToJnt. cbv zeta. rewrite (negb_eqb _ _ En), B1, B2, En. reflexivity.
Qed.

Lemma hd_finish svd c s q qd qdd alfa beta fext ff ct res1 j res2 : chain_ok c -> all_moving c -> hd_current c s ->
  hd_sizes c (hd_nc s) q qd qdd alfa beta fext ff ct -> length (hd_res s) = (hd_ns s + 1)%nat ->
  for_loop (ch_ns c) 0 (hd_init_body c (hd_acc s) q qd fext) (0%nat, f_id, hd_res s) = Ret (ch_ns c, tip_frame c q (ch_ns c), res1) ->
  length res1 = (ch_ns c + 1)%nat -> (forall m, (m < ch_ns c)%nat -> si_a (rget res1 (S m)) = SA c q qd fext m) ->
  for_loop (ch_ns c + 1) 0 (hd_down_body c (ch_ns c) (hd_nc s) (tip_frame c q (ch_ns c)) alfa ff) ((Z.of_nat (ch_nj c) - 1)%Z, res1) = Ret (j, res2) ->
  exists qdd' ct' s' a, hd_CartToJnt svd c s q qd qdd alfa beta fext ff ct = Ret (E_NOERROR, qdd', ct', s') /\
    hd_facts svd c (hd_acc s) (hd_nc s) q qd alfa beta fext ff qdd' ct' s' a res2.
Proof.
  intros Hok Hmv [En Et] Hs Lr E1 L1 Ha E2. pose proof Hok as [Hw _]. pose proof (nj_moving c Hw Hmv) as Nj.
  pose proof Hs as (Lq & Lqd & Lqdd & Lff & Lct & Lfe & Lal & Lbe).
  rewrite (hd_sized svd c s q qd qdd alfa beta fext ff ct En Hs).
  set (a := fun i => si_a (rget res1 i)).
  destruct (hd_down_part c q qd fext Hok Hmv Lq Lqd Lfe (hd_nc s) alfa ff Lff a (tip_frame c q (ch_ns c)) res1 j res2 L1 (fun i _ => eq_refl) E2) as [L2 Sw].
  rewrite E1. cbn [obind]. rewrite E2. cbn [obind]. rewrite rget_get by lia. cbn [obind]. cbv zeta.
  set (nu := hd_constraint svd (hd_nc s) (hd_acc s) beta (rget res2 0)).
  destruct (hd_final c (hd_acc s) q qd fext Hok Hmv Lq Lqd Lfe ff Lff nu res2 qdd ct (hd_total s) L2) as (j3 & res3 & qdd' & ct' & tot' & E3 & L3 & Q3 & C3 & T3 & Same & Fs); try lia.
  { intros k Hk. exact (swept_D c q qd fext Lq Lqd Lfe (hd_nc s) alfa ff Lff a _ res2 k Sw Hk). }
  rewrite E3. cbn [obind]. exists qdd', ct'. eexists. exists a. split; [reflexivity|]. unfold hd_facts. cbn [hd_ns hd_nc hd_acc hd_nu hd_res hd_total].
  split; [intros m Hm; apply Ha, Hm|]. split; [exact Sw|]. split; [reflexivity|]. split; [reflexivity|]. split; [reflexivity|]. split; [reflexivity|].
  split; [exact L3|]. split; [lia|]. split; [lia|]. split; [lia|]. split; [intros i Hi; destruct (Same i Hi) as (S1 & _ & S3); auto|exact Fs].
Qed.
Lemma hd_run svd c s q qd qdd alfa beta fext ff ct qdd' ct' s' : chain_ok c -> all_moving c -> hd_current c s -> length (hd_res s) = (hd_ns s + 1)%nat ->
  hd_CartToJnt svd c s q qd qdd alfa beta fext ff ct = Ret (E_NOERROR, qdd', ct', s') ->
  hd_sizes c (hd_nc s) q qd qdd alfa beta fext ff ct /\ exists a res2, hd_facts svd c (hd_acc s) (hd_nc s) q qd alfa beta fext ff qdd' ct' s' a res2.
Proof.
  intros Hok Hmv Hc Lr E. destruct (hd_noerror svd c s q qd qdd alfa beta fext ff ct qdd' ct' s' E) as [En Hs]. split; [exact Hs|].
  pose proof Hs as (Lq & Lqd & Lqdd & Lff & Lct & Lfe & Lal & Lbe).
  destruct (hd_init c (hd_acc s) q qd fext Hok Hmv Lq Lqd Lfe (hd_res s)) as (res1 & E1 & L1 & Ha); [lia|].
  pose proof E as E0. rewrite (hd_sized svd c s q qd qdd alfa beta fext ff ct En Hs) in E0. rewrite E1 in E0. cbn [obind] in E0.
  apply obind_Ret_inv in E0. destruct E0 as ([j res2] & E2 & _).
  destruct (hd_finish svd c s q qd qdd alfa beta fext ff ct res1 j res2 Hok Hmv Hc Hs Lr E1 L1 Ha E2) as (q' & c' & s'' & a & E' & Fx).
  rewrite E in E'. injection E' as <- <- <-. exists a, res2. exact Fx.
Qed.

(** * Chains with a fixed joint *)
Lemma all_moving_dec c : chain_wf c -> all_moving c \/ exists i, (i < ch_ns c)%nat /\ mv c i = false.
Proof.
  intros [Hn _]. assert (G : forall k, (forall i, (i < k)%nat -> mv c i = true) \/ exists i, (i < k)%nat /\ mv c i = false).
  { induction k as [|k [IH|(i & Hi & E)]]; [left; intros; lia| |right; exists i; split; [lia|exact E]].
    destruct (mv c k) eqn:Ek; [left|right; exists k; auto]. intros i Hi. destruct (Nat.eq_dec i k) as [->|]; [exact Ek|apply IH; lia]. }
  apply G.
Qed.
Lemma fixed_root_D sg a t f : moving sg = false -> sa_Z a = t_zero -> sr_D (hd_root sg a t f) = 0.
Proof. intros Hm Hz. unfold hd_root. cbv zeta. cbn [sr_D]. rewrite Hm, Hz. apply tw_dot_zero_l. Qed.
Lemma hd_fixed svd c s q qd qdd alfa beta fext ff ct i : chain_ok c -> hd_ns s = ch_ns c ->
  hd_sizes c (hd_nc s) q qd qdd alfa beta fext ff ct -> (i < ch_ns c)%nat -> mv c i = false ->
  hd_CartToJnt svd c s q qd qdd alfa beta fext ff ct = Undef.
Proof.
  intros Hok En Hs Hi Hf. pose proof Hok as [Hw _].
  destruct (hd_CartToJnt svd c s q qd qdd alfa beta fext ff ct) as [r|] eqn:E; [|reflexivity]. exfalso.
  rewrite (hd_sized svd c s q qd qdd alfa beta fext ff ct En Hs) in E.
  apply obind_Ret_inv in E. destruct E as ([[j1 Ft] res1] & E1 & E). apply obind_Ret_inv in E. destruct E as ([j2 res2] & E2 & _).
  assert (Z1 : sa_Z (si_a (rget res1 (S i))) = t_zero).
  { enough (K : (i < 0 + ch_ns c)%nat -> sa_Z (si_a (rget (snd (j1, Ft, res1)) (S i))) = t_zero) by (apply K; exact Hi).
    refine (for_loop_pinv (fun k (st : nat * Frame * list seginfo) => (i < k)%nat -> sa_Z (si_a (rget (snd st) (S i))) = t_zero) _ _ _ _ _ _ _ E1); [|intros; lia].
    intros k [[j F] rs] st' Hk IH Eb. cbn [snd] in IH. unfold hd_init_body in Eb.
    rewrite (seg_get c k Hw) in Eb by lia. cbn [obind] in Eb.
    repeat (apply obind_Ret_inv in Eb; destruct Eb as (? & ? & Eb)). injection Eb as <-. cbn [snd].
    match goal with K : aset rs _ _ = Ret _ |- _ => apply aset_Ret_inv in K; destruct K as [KL ->] end.
    intros Hlt. rewrite Nat.add_1_r in *. destruct (Nat.eq_dec k i) as [Ek|Ne].
    - subst k. rewrite rget_same by exact KL. cbn [si_a sa_Z]. rewrite segment_twist_fixed by exact Hf.
      match goal with |- f_app_t ?G (r_invapp_t ?M t_zero) = _ => generalize G M end. clear. geo.
    - rewrite rget_other by lia. apply IH. lia. }
  (* iteration n - S i sets D, the next one stops *)
  enough (K : (sa_Z (si_a (rget (snd (j2, res2)) (S i))) = t_zero) /\
     ((ch_ns c - S i < 0 + (ch_ns c + 1))%nat -> sr_D (si_r (rget (snd (j2, res2)) (S i))) = 0) /\ (0 + (ch_ns c + 1) <= ch_ns c - i)%nat) by (destruct K as (_ & _ & K); lia).
  refine (for_loop_pinv (fun t (st : Z * list seginfo) => (sa_Z (si_a (rget (snd st) (S i))) = t_zero) /\
     ((ch_ns c - S i < t)%nat -> sr_D (si_r (rget (snd st) (S i))) = 0) /\ (t <= ch_ns c - i)%nat) _ _ _ _ _ _ _ E2);
    [|cbn [snd]; split; [exact Z1|split; [lia|lia]]].
  intros t [j rs] st' Ht (IZ & ID & Il) Eb. cbn [snd] in IZ, ID. unfold hd_down_body in Eb. cbv zeta in Eb.
  apply obind_Ret_inv in Eb. destruct Eb as (si & Esi & Eb).
  pose proof (aget_Ret_lt _ _ _ Esi) as Lsi. rewrite rget_get in Esi by exact Lsi. injection Esi as <-.
  apply obind_Ret_inv in Eb. destruct Eb as (tl & Etl & Eb).
  destruct (Nat.eq_dec t (ch_ns c - i)) as [Et|Nt].
  - exfalso. replace (ch_ns c - t)%nat with i in * by lia.
    destruct (Nat.eqb_spec i (ch_ns c)) as [Q|Q]; [lia|].
    apply obind_Ret_inv in Etl. destruct Etl as (ch & Ech & Etl).
    pose proof (aget_Ret_lt _ _ _ Ech) as Lch. rewrite rget_get in Ech by exact Lch. injection Ech as <-.
    rewrite Nat.add_1_r in Etl. unfold hd_inner in Etl. cbv zeta in Etl. rewrite ID in Etl by lia. destruct (Req_EM_T 0 0); [discriminate Etl|contradiction].
  - destruct (Nat.eqb_spec (ch_ns c - t) 0) as [Q|Q]; [exfalso; lia|].
    rewrite (seg_get c (ch_ns c - t - 1) Hw) in Eb by lia. cbn [obind] in Eb.
    apply obind_Ret_inv in Eb. destruct Eb as (f & Ef & Eb).
    apply obind_Ret_inv in Eb. destruct Eb as (rs' & Er & Eb). injection Eb as <-. cbn [snd].
    apply aset_Ret_inv in Er. destruct Er as [KL ->].
    destruct (Nat.eq_dec (ch_ns c - t) (S i)) as [Ek|Ne].
    + rewrite Ek in *. rewrite !rget_same by lia. cbn [si_a si_r]. split; [exact IZ|]. split; [|lia].
      intros _. replace (S i - 1)%nat with i by lia. apply fixed_root_D; [exact Hf|exact IZ].
    + rewrite !rget_other by exact Ne. split; [exact IZ|]. split; [|lia]. intros K. apply ID. lia.
Qed.
Lemma hd_moving svd c s q qd qdd alfa beta fext ff ct qdd' ct' s' : chain_ok c ->
  hd_CartToJnt svd c s q qd qdd alfa beta fext ff ct = Ret (E_NOERROR, qdd', ct', s') -> all_moving c.
Proof.
  intros Hok E. destruct (all_moving_dec c (proj1 Hok)) as [H|(i & Hi & Hf)]; [exact H|]. exfalso.
  destruct (hd_noerror svd c s q qd qdd alfa beta fext ff ct qdd' ct' s' E) as [En Hs].
  rewrite (hd_fixed svd c s q qd qdd alfa beta fext ff ct i Hok En Hs Hi Hf) in E. discriminate E.
Qed.
