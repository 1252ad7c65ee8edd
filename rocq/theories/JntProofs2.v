(** JntArrayVel and JntArrayAcc follow the calculus of moving joints (C52). *)
From Coq Require Import Reals List Lia Lra Arith Bool.
From Verif Require Import FramesModel Outcome LoopProofs InertiaModel DualModel DualSpec DualProofs KinModel JntModel JntSpec JntProofs.
Import ListNotations.
Local Open Scope R_scope.

Lemma addN n st a b d : sized st n a -> sized st n b ->
  exists st', jnt_Add st a b d = Ret st' /\ sized st' n d /\
    (forall i, (i < n)%nat -> nth i (st' d) 0 = nth i (st a) 0 + nth i (st b) 0) /\
    (forall r, r <> d -> st' r = st r).
Proof.
  unfold sized. intros Ha Hb. destruct (jnt_add_ok st a b d) as (st' & E & (L & V) & O); [congruence|].
  exists st'. split; [exact E|]. split; [congruence|]. split.
  - intros i Hi. apply V. lia.
  - intros r Hr. apply O. simpl. intuition congruence.
Qed.
Lemma subN n st a b d : sized st n a -> sized st n b ->
  exists st', jnt_Subtract st a b d = Ret st' /\ sized st' n d /\
    (forall i, (i < n)%nat -> nth i (st' d) 0 = nth i (st a) 0 - nth i (st b) 0) /\
    (forall r, r <> d -> st' r = st r).
Proof.
  unfold sized. intros Ha Hb. destruct (jnt_sub_ok st a b d) as (st' & E & (L & V) & O); [congruence|].
  exists st'. split; [exact E|]. split; [congruence|]. split.
  - intros i Hi. apply V. lia.
  - intros r Hr. apply O. simpl. intuition congruence.
Qed.
Lemma mulN n st a k d : sized st n a ->
  exists st', jnt_Multiply st a k d = Ret st' /\ sized st' n d /\
    (forall i, (i < n)%nat -> nth i (st' d) 0 = k * nth i (st a) 0) /\
    (forall r, r <> d -> st' r = st r).
Proof.
  unfold sized. intros Ha. destruct (jnt_mul_ok st a k d) as (st' & E & (L & V) & O).
  exists st'. split; [exact E|]. split; [congruence|]. split.
  - intros i Hi. apply V. lia.
  - intros r Hr. apply O. simpl. intuition congruence.
Qed.
Lemma divN n st a k d : sized st n a ->
  exists st', jnt_Divide st a k d = Ret st' /\ sized st' n d /\
    (forall i, (i < n)%nat -> nth i (st' d) 0 = nth i (st a) 0 / k) /\
    (forall r, r <> d -> st' r = st r).
Proof.
  unfold sized. intros Ha. destruct (eigen_unary_ok (fun x => x / k) st a d) as (st' & E & (L & V) & O).
  exists st'. split; [exact E|]. split; [congruence|]. split.
  - intros i Hi. apply V. lia.
  - intros r Hr. apply O. simpl. intuition congruence.
Qed.
Lemma asgN n st a d : sized st n a ->
  exists st', jnt_assign st a d = Ret st' /\ sized st' n d /\
    (forall i, (i < n)%nat -> nth i (st' d) 0 = nth i (st a) 0) /\
    (forall r, r <> d -> st' r = st r).
Proof.
  unfold sized. intros Ha. destruct (jnt_assign_ok st a d) as (st' & E & (L & V) & O).
  exists st'. split; [exact E|]. split; [congruence|]. split.
  - intros i Hi. apply V. lia.
  - intros r Hr. apply O. simpl. intuition congruence.
Qed.

(** Resolve [st' r] through the writes between [st'] and the initial store. *)
Ltac thru :=
  repeat match goal with
  | O : (forall r, r <> ?d -> ?s' r = ?s r) |- context [?s' ?x] =>
      rewrite (O x) by (first [assumption | congruence])
  end.
Ltac fields := cbn [jv_q jv_qdot ja_q ja_qdot ja_qdd] in *.
Ltac size := unfold sized in *; fields; thru; assumption.
(** Value of an entry: resolve, then use the entry equation of the last write. *)
Ltac entry i Hi :=
  repeat (thru;
    match goal with
    | V : (forall j, (j < ?n)%nat -> nth j (?s' ?d) 0 = _) |- context [nth i (?s' ?d) 0] =>
        rewrite (V i Hi)
    end); thru.
Ltac go L := let s := fresh "s" in let E := fresh "E" in let Z := fresh "Z" in let V := fresh "V" in let O := fresh "O" in
  destruct L as (s & E & Z & V & O); [size..|]; rewrite E; cbn [obind]; clear E.
Ltac finish := eexists; split; [reflexivity|].


Ltac lay HL x y :=
  let N := fresh "N" in
  assert (N := HL x y ltac:(simpl; tauto) ltac:(simpl; tauto));
  cbn [jv_q jv_qdot ja_q ja_qdot ja_qdd] in N;
  lazymatch type of N with _ /\ _ => destruct N as (? & ? & ?) | _ => idtac end.
Ltac lay2 HL x y := lay HL x x; lay HL x y; lay HL y x; lay HL y y; clear HL.
Ltac lay3 HL x y z := lay HL x z; lay HL y z; lay HL z x; lay HL z y; lay HL x x; lay HL y y; lay HL z z;
  lay HL x y; lay HL y x; clear HL.
Ltac other := let r := fresh "r" in let Hr := fresh "Hr" in
  intros r Hr; cbn [jv_members ja_members jv_q jv_qdot ja_q ja_qdot ja_qdd In] in Hr;
  repeat match goal with O : (forall r, r <> ?d -> ?s' r = ?s r) |- context [?s' r] =>
           rewrite (O r) by (let X := fresh in intros X; apply Hr; rewrite X; tauto) end; reflexivity.

Section Vel.
Variables (n : nat) (t : R) (c e : nat -> R -> R) (st : store).

Ltac done3 X := split; [split; [size|split; [size|]]; fields; intros i Hi; entry i Hi; X i Hi | other].

Lemma jv_add_ok a b d : jv_layout [a; b; d] -> jv_follows n c t st a -> jv_follows n e t st b ->
  exists st', jv_Add st a b d = Ret st' /\ jv_follows n (fun i s => c i s + e i s) t st' d /\
              only_changed st st' (jv_members d).
Proof.
  destruct a as [aq av], b as [bq bv], d as [dq dv]. intros HL (A1 & A2 & A3) (B1 & B2 & B3).
  lay3 HL (mkJV aq av) (mkJV bq bv) (mkJV dq dv). unfold jv_Add. fields.
  go (addN n st aq bq dq). go (addN n s av bv dv). finish.
  done3 ltac:(fun i Hi => exact (c1_add _ _ _ _ _ (A3 i Hi) (B3 i Hi))).
Qed.
Lemma jv_sub_ok a b d : jv_layout [a; b; d] -> jv_follows n c t st a -> jv_follows n e t st b ->
  exists st', jv_Subtract st a b d = Ret st' /\ jv_follows n (fun i s => c i s - e i s) t st' d /\
              only_changed st st' (jv_members d).
Proof.
  destruct a as [aq av], b as [bq bv], d as [dq dv]. intros HL (A1 & A2 & A3) (B1 & B2 & B3).
  lay3 HL (mkJV aq av) (mkJV bq bv) (mkJV dq dv). unfold jv_Subtract. fields.
  go (subN n st aq bq dq). go (subN n s av bv dv). finish.
  done3 ltac:(fun i Hi => exact (c1_sub _ _ _ _ _ (A3 i Hi) (B3 i Hi))).
Qed.

(** A plain JntArray operand: a constant displacement of every joint. *)
Lemma jv_addq_ok a b d : jv_layout [a; d] -> b <> jv_qdot d -> sized st n b -> jv_follows n c t st a ->
  exists st', jv_Add_q st a b d = Ret st' /\ jv_follows n (fun i s => c i s + nth i (st b) 0) t st' d /\
              only_changed st st' (jv_members d).
Proof.
  destruct a as [aq av], d as [dq dv]. intros HL Hb Sb (A1 & A2 & A3).
  lay2 HL (mkJV aq av) (mkJV dq dv). unfold jv_Add_q. fields.
  go (addN n st aq b dq). go (asgN n s av dv). finish.
  done3 ltac:(fun i Hi => exact (c1_adds _ _ _ (nth i (st b) 0) (A3 i Hi))).
Qed.
Lemma jv_subq_ok a b d : jv_layout [a; d] -> b <> jv_qdot d -> sized st n b -> jv_follows n c t st a ->
  exists st', jv_Subtract_q st a b d = Ret st' /\ jv_follows n (fun i s => c i s - nth i (st b) 0) t st' d /\
              only_changed st st' (jv_members d).
Proof.
  destruct a as [aq av], d as [dq dv]. intros HL Hb Sb (A1 & A2 & A3).
  lay2 HL (mkJV aq av) (mkJV dq dv). unfold jv_Subtract_q. fields.
  go (subN n st aq b dq). go (asgN n s av dv). finish.
  done3 ltac:(fun i Hi => exact (c1_subs _ _ _ (nth i (st b) 0) (A3 i Hi))).
Qed.

Lemma jv_mul_ok a k d : jv_layout [a; d] -> jv_follows n c t st a ->
  exists st', jv_Multiply st a k d = Ret st' /\ jv_follows n (fun i s => k * c i s) t st' d /\
              only_changed st st' (jv_members d).
Proof.
  destruct a as [aq av], d as [dq dv]. intros HL (A1 & A2 & A3).
  lay2 HL (mkJV aq av) (mkJV dq dv). unfold jv_Multiply. fields.
  go (mulN n st aq k dq). go (mulN n s av k dv). finish.
  done3 ltac:(fun i Hi => exact (c1_smul _ _ _ k (A3 i Hi))).
Qed.
Lemma jv_div_ok a k d : k <> 0 -> jv_layout [a; d] -> jv_follows n c t st a ->
  exists st', jv_Divide st a k d = Ret st' /\ jv_follows n (fun i s => c i s / k) t st' d /\
              only_changed st st' (jv_members d).
Proof.
  destruct a as [aq av], d as [dq dv]. intros Hk HL (A1 & A2 & A3).
  lay2 HL (mkJV aq av) (mkJV dq dv). unfold jv_Divide. fields.
  go (divN n st aq k dq). go (divN n s av k dv). finish.
  done3 ltac:(fun i Hi => exact (c1_divs _ _ _ k (A3 i Hi))).
Qed.

Variables (f : R -> R) (k : dVel).
Hypothesis Hf : carries1 f t k.

Lemma jv_mulv_ok a d : jv_layout [a; d] -> jv_apart a d -> jv_follows n c t st a ->
  exists st', jv_Multiply_vel st a k d = Ret st' /\ jv_follows n (fun i s => f s * c i s) t st' d /\
              only_changed st st' (jv_members d).
Proof.
  destruct a as [aq av], d as [dq dv]. intros HL (P1 & P2) (A1 & A2 & A3).
  lay2 HL (mkJV aq av) (mkJV dq dv). unfold jv_Multiply_vel. fields.
  go (mulN n st aq (d1g k) dq). go (mulN n s av (d1t k) dv). go (addN n s0 dv dq dv).
  go (mulN n s1 aq (d1t k) dq). finish.
  done3 ltac:(fun i Hi => assert (Q := c1_mul _ _ _ _ _ Hf (A3 i Hi))).
  unfold d1_mul in Q; cbn [d1t d1g] in Q.
  match type of Q with carries1 _ _ (mkD1 ?x ?y) => match goal with |- carries1 _ _ (mkD1 ?u ?v) =>
    replace v with y by ring end end. exact Q.
Qed.
Lemma jv_divv_ok a d : f t <> 0 -> jv_layout [a; d] -> jv_apart a d -> jv_follows n c t st a ->
  exists st', jv_Divide_vel st a k d = Ret st' /\ jv_follows n (fun i s => c i s / f s) t st' d /\
              only_changed st st' (jv_members d).
Proof.
  destruct a as [aq av], d as [dq dv]. intros Hz HL (P1 & P2) (A1 & A2 & A3).
  assert (Hz' : d1t k <> 0) by (rewrite (proj1 Hf); exact Hz).
  lay2 HL (mkJV aq av) (mkJV dq dv). unfold jv_Divide_vel. fields.
  go (mulN n st aq (d1g k / d1t k / d1t k) dq). go (divN n s av (d1t k) dv). go (subN n s0 dv dq dv).
  go (divN n s1 aq (d1t k) dq). finish.
  done3 ltac:(fun i Hi => assert (Q := c1_div _ _ _ _ _ (A3 i Hi) Hf Hz)).
  unfold d1_div in Q; cbn [d1t d1g] in Q.
  match type of Q with carries1 _ _ (mkD1 ?x ?y) => match goal with |- carries1 _ _ (mkD1 ?u ?v) =>
    replace v with y by (field; exact Hz') end end. exact Q.
Qed.
End Vel.

Section Acc.
Variables (n : nat) (t : R) (c e : nat -> R -> R) (st : store).

Ltac done4 X := split; [split; [size|split; [size|split; [size|]]]; fields; intros i Hi; entry i Hi; X i Hi | other].

Lemma ja_add_ok a b d : ja_layout [a; b; d] -> ja_follows n c t st a -> ja_follows n e t st b ->
  exists st', ja_Add st a b d = Ret st' /\ ja_follows n (fun i s => c i s + e i s) t st' d /\
              only_changed st st' (ja_members d).
Proof.
  destruct a as [aq av aa], b as [bq bv ba], d as [dq dv da]. intros HL (A1 & A2 & A3 & A4) (B1 & B2 & B3 & B4).
  lay3 HL (mkJA aq av aa) (mkJA bq bv ba) (mkJA dq dv da). unfold ja_Add. fields.
  go (addN n st aq bq dq). go (addN n s av bv dv). go (addN n s0 aa ba da). finish.
  done4 ltac:(fun i Hi => exact (c2_add _ _ _ _ _ (A4 i Hi) (B4 i Hi))).
Qed.
Lemma ja_sub_ok a b d : ja_layout [a; b; d] -> ja_follows n c t st a -> ja_follows n e t st b ->
  exists st', ja_Subtract st a b d = Ret st' /\ ja_follows n (fun i s => c i s - e i s) t st' d /\
              only_changed st st' (ja_members d).
Proof.
  destruct a as [aq av aa], b as [bq bv ba], d as [dq dv da]. intros HL (A1 & A2 & A3 & A4) (B1 & B2 & B3 & B4).
  lay3 HL (mkJA aq av aa) (mkJA bq bv ba) (mkJA dq dv da). unfold ja_Subtract. fields.
  go (subN n st aq bq dq). go (subN n s av bv dv). go (subN n s0 aa ba da). finish.
  done4 ltac:(fun i Hi => exact (c2_sub _ _ _ _ _ (A4 i Hi) (B4 i Hi))).
Qed.

Lemma ja_addq_ok a b d : ja_layout [a; d] -> b <> ja_qdot d -> b <> ja_qdd d -> sized st n b -> ja_follows n c t st a ->
  exists st', ja_Add_q st a b d = Ret st' /\ ja_follows n (fun i s => c i s + nth i (st b) 0) t st' d /\
              only_changed st st' (ja_members d).
Proof.
  destruct a as [aq av aa], d as [dq dv da]. intros HL Hb Hb' Sb (A1 & A2 & A3 & A4).
  lay2 HL (mkJA aq av aa) (mkJA dq dv da). unfold ja_Add_q. fields.
  go (addN n st aq b dq). go (asgN n s av dv). go (asgN n s0 aa da). finish.
  done4 ltac:(fun i Hi => exact (c2_adds _ _ _ (nth i (st b) 0) (A4 i Hi))).
Qed.
Lemma ja_subq_ok a b d : ja_layout [a; d] -> b <> ja_qdot d -> b <> ja_qdd d -> sized st n b -> ja_follows n c t st a ->
  exists st', ja_Subtract_q st a b d = Ret st' /\ ja_follows n (fun i s => c i s - nth i (st b) 0) t st' d /\
              only_changed st st' (ja_members d).
Proof.
  destruct a as [aq av aa], d as [dq dv da]. intros HL Hb Hb' Sb (A1 & A2 & A3 & A4).
  lay2 HL (mkJA aq av aa) (mkJA dq dv da). unfold ja_Subtract_q. fields.
  go (subN n st aq b dq). go (asgN n s av dv). go (asgN n s0 aa da). finish.
  done4 ltac:(fun i Hi => exact (c2_subs _ _ _ (nth i (st b) 0) (A4 i Hi))).
Qed.

Lemma ja_mul_ok a k d : ja_layout [a; d] -> ja_follows n c t st a ->
  exists st', ja_Multiply st a k d = Ret st' /\ ja_follows n (fun i s => k * c i s) t st' d /\
              only_changed st st' (ja_members d).
Proof.
  destruct a as [aq av aa], d as [dq dv da]. intros HL (A1 & A2 & A3 & A4).
  lay2 HL (mkJA aq av aa) (mkJA dq dv da). unfold ja_Multiply. fields.
  go (mulN n st aq k dq). go (mulN n s av k dv). go (mulN n s0 aa k da). finish.
  done4 ltac:(fun i Hi => exact (c2_smul _ _ _ k (A4 i Hi))).
Qed.
Lemma ja_div_ok a k d : k <> 0 -> ja_layout [a; d] -> ja_follows n c t st a ->
  exists st', ja_Divide st a k d = Ret st' /\ ja_follows n (fun i s => c i s / k) t st' d /\
              only_changed st st' (ja_members d).
Proof.
  destruct a as [aq av aa], d as [dq dv da]. intros Hk HL (A1 & A2 & A3 & A4).
  lay2 HL (mkJA aq av aa) (mkJA dq dv da). unfold ja_Divide. fields.
  go (divN n st aq k dq). go (divN n s av k dv). go (divN n s0 aa k da). finish.
  done4 ltac:(fun i Hi => exact (c2_divs _ _ _ k (A4 i Hi))).
Qed.

(** A JntArrayVel operand: a displacement with constant velocity. *)
Lemma ja_addv_ok a b d : ja_layout [a; d] ->
  jv_q b <> ja_qdot d -> jv_q b <> ja_qdd d -> jv_qdot b <> ja_q d -> jv_qdot b <> ja_qdd d ->
  sized st n (jv_q b) -> sized st n (jv_qdot b) ->
  (forall i, (i < n)%nat -> carries2 (e i) t (mkD2 (nth i (st (jv_q b)) 0) (nth i (st (jv_qdot b)) 0) 0)) ->
  ja_follows n c t st a ->
  exists st', ja_Add_vel st a b d = Ret st' /\ ja_follows n (fun i s => c i s + e i s) t st' d /\
              only_changed st st' (ja_members d).
Proof.
  destruct a as [aq av aa], d as [dq dv da], b as [bq bv]. intros HL H1 H2 H3 H4 S1 S2 B (A1 & A2 & A3 & A4).
  lay2 HL (mkJA aq av aa) (mkJA dq dv da). unfold ja_Add_vel. fields.
  go (addN n st aq bq dq). go (addN n s av bv dv). go (asgN n s0 aa da). finish.
  done4 ltac:(fun i Hi => assert (Q := c2_add _ _ _ _ _ (A4 i Hi) (B i Hi))).
  unfold d2_add in Q; cbn [d2t d2d d2dd] in Q. rewrite Rplus_0_r in Q. exact Q.
Qed.
Lemma ja_subv_ok a b d : ja_layout [a; d] ->
  jv_q b <> ja_qdot d -> jv_q b <> ja_qdd d -> jv_qdot b <> ja_q d -> jv_qdot b <> ja_qdd d ->
  sized st n (jv_q b) -> sized st n (jv_qdot b) ->
  (forall i, (i < n)%nat -> carries2 (e i) t (mkD2 (nth i (st (jv_q b)) 0) (nth i (st (jv_qdot b)) 0) 0)) ->
  ja_follows n c t st a ->
  exists st', ja_Subtract_vel st a b d = Ret st' /\ ja_follows n (fun i s => c i s - e i s) t st' d /\
              only_changed st st' (ja_members d).
Proof.
  destruct a as [aq av aa], d as [dq dv da], b as [bq bv]. intros HL H1 H2 H3 H4 S1 S2 B (A1 & A2 & A3 & A4).
  lay2 HL (mkJA aq av aa) (mkJA dq dv da). unfold ja_Subtract_vel. fields.
  go (subN n st aq bq dq). go (subN n s av bv dv). go (asgN n s0 aa da). finish.
  done4 ltac:(fun i Hi => assert (Q := c2_sub _ _ _ _ _ (A4 i Hi) (B i Hi))).
  unfold d2_sub in Q; cbn [d2t d2d d2dd] in Q. rewrite Rminus_0_r in Q. exact Q.
Qed.

Variable (f : R -> R).

Ltac matchup Q tac :=
  match type of Q with carries2 _ _ (mkD2 ?x ?y ?z) => match goal with |- carries2 _ _ (mkD2 ?u ?v ?w) =>
    replace u with x by tac; replace v with y by tac; replace w with z by tac end end; exact Q.

(** A doubleVel factor: one whose second derivative is zero. *)
Lemma ja_mulv_ok k a d : carries2 f t (mkD2 (d1t k) (d1g k) 0) -> ja_layout [a; d] -> ja_apart a d -> ja_follows n c t st a ->
  exists st', ja_Multiply_vel st a k d = Ret st' /\ ja_follows n (fun i s => f s * c i s) t st' d /\
              only_changed st st' (ja_members d).
Proof.
  destruct a as [aq av aa], d as [dq dv da]. intros Hf HL (P1 & P2 & P3) (A1 & A2 & A3 & A4).
  lay2 HL (mkJA aq av aa) (mkJA dq dv da). unfold ja_Multiply_vel. fields.
  go (mulN n st av (d1g k * 2) dv). go (mulN n s aa (d1t k) da). go (addN n s0 dv da da).
  go (mulN n s1 aq (d1g k) dq). go (mulN n s2 av (d1t k) dv). go (addN n s3 dv dq dv).
  go (mulN n s4 aq (d1t k) dq). finish.
  done4 ltac:(fun i Hi => assert (Q := c2_mul _ _ _ _ _ Hf (A4 i Hi))).
  unfold d2_mul in Q; cbn [d2t d2d d2dd] in Q. matchup Q ltac:(ring).
Qed.
Lemma ja_mula_ok k a d : carries2 f t k -> ja_layout [a; d] -> ja_apart a d -> ja_follows n c t st a ->
  exists st', ja_Multiply_acc st a k d = Ret st' /\ ja_follows n (fun i s => f s * c i s) t st' d /\
              only_changed st st' (ja_members d).
Proof.
  destruct a as [aq av aa], d as [dq dv da]. intros Hf HL (P1 & P2 & P3) (A1 & A2 & A3 & A4).
  lay2 HL (mkJA aq av aa) (mkJA dq dv da). unfold ja_Multiply_acc. fields.
  go (mulN n st aq (d2dd k) dq). go (mulN n s av (d2d k * 2) dv). go (mulN n s0 aa (d2t k) da).
  go (addN n s1 da dv da). go (addN n s2 da dq da).
  go (mulN n s3 aq (d2d k) dq). go (mulN n s4 av (d2t k) dv). go (addN n s5 dv dq dv).
  go (mulN n s6 aq (d2t k) dq). finish.
  done4 ltac:(fun i Hi => assert (Q := c2_mul _ _ _ _ _ Hf (A4 i Hi))).
  unfold d2_mul in Q; cbn [d2t d2d d2dd] in Q. matchup Q ltac:(ring).
Qed.
Lemma ja_divv_ok k a d : f t <> 0 -> carries2 f t (mkD2 (d1t k) (d1g k) 0) -> ja_layout [a; d] -> ja_apart a d -> ja_follows n c t st a ->
  exists st', ja_Divide_vel st a k d = Ret st' /\ ja_follows n (fun i s => c i s / f s) t st' d /\
              only_changed st st' (ja_members d).
Proof.
  destruct a as [aq av aa], d as [dq dv da]. intros Hz Hf HL (P1 & P2 & P3) (A1 & A2 & A3 & A4).
  assert (Hz' : d1t k <> 0) by (rewrite <- (proj1 Hf) in Hz; exact Hz).
  lay2 HL (mkJA aq av aa) (mkJA dq dv da). unfold ja_Divide_vel. fields.
  go (mulN n st aq (2 * d1g k * d1g k / (d1t k * d1t k * d1t k)) dq). go (mulN n s av (2 * d1g k / (d1t k * d1t k)) dv).
  go (divN n s0 aa (d1t k) da). go (subN n s1 da dv da). go (addN n s2 da dq da).
  go (mulN n s3 aq (d1g k / (d1t k * d1t k)) dq). go (divN n s4 av (d1t k) dv). go (subN n s5 dv dq dv).
  go (divN n s6 aq (d1t k) dq). finish.
  done4 ltac:(fun i Hi => assert (Q := c2_div _ _ _ _ _ (A4 i Hi) Hf Hz)).
  unfold d2_div in Q; cbn [d2t d2d d2dd] in Q. matchup Q ltac:(field; exact Hz').
Qed.
Lemma ja_diva_ok k a d : f t <> 0 -> carries2 f t k -> ja_layout [a; d] -> ja_apart a d -> ja_follows n c t st a ->
  exists st', ja_Divide_acc st a k d = Ret st' /\ ja_follows n (fun i s => c i s / f s) t st' d /\
              only_changed st st' (ja_members d).
Proof.
  destruct a as [aq av aa], d as [dq dv da]. intros Hz Hf HL (P1 & P2 & P3) (A1 & A2 & A3 & A4).
  assert (Hz' : d2t k <> 0) by (rewrite <- (proj1 Hf) in Hz; exact Hz).
  lay2 HL (mkJA aq av aa) (mkJA dq dv da). unfold ja_Divide_acc. fields.
  go (mulN n st aq (2 * d2d k * d2d k / (d2t k * d2t k * d2t k) - d2dd k / (d2t k * d2t k)) dq).
  go (mulN n s av (2 * d2d k / (d2t k * d2t k)) dv).
  go (divN n s0 aa (d2t k) da). go (subN n s1 da dv da). go (addN n s2 da dq da).
  go (mulN n s3 aq (d2d k / (d2t k * d2t k)) dq). go (divN n s4 av (d2t k) dv). go (subN n s5 dv dq dv).
  go (divN n s6 aq (d2t k) dq). finish.
  done4 ltac:(fun i Hi => assert (Q := c2_div _ _ _ _ _ (A4 i Hi) Hf Hz)).
  unfold d2_div in Q; cbn [d2t d2d d2dd] in Q. matchup Q ltac:(field; exact Hz').
Qed.
End Acc.

(** * The derivative-aware products are not alias-safe *)

Definition one_joint (x y z : R) : store :=
  fun r => match r with 0%nat => [x] | 1%nat => [y] | 2%nat => [z] | _ => [] end.

(** Multiplying a joint standing at 1 in place by the constant 2 gives 0: the
    position is overwritten by its product with the factor's derivative first. *)
Lemma jv_mul_alias_wrong : exists st a k c f t n,
  jv_layout [a; a] /\ jv_follows n c t st a /\ carries1 f t k /\
  forall st', jv_Multiply_vel st a k a = Ret st' -> ~ jv_follows n (fun i s => f s * c i s) t st' a.
Proof.
  exists (one_joint 1 0 0), (mkJV 0%nat 1%nat), (mkD1 2 0), (fun _ _ => 1), (fun _ => 2), 0, 1%nat.
  split; [|split; [|split]].
  - intros x y [<-|[<-|[]]] [<-|[<-|[]]]; simpl; discriminate.
  - split; [reflexivity|split; [reflexivity|]]. intros i Hi. assert (i = 0%nat) by lia; subst i. simpl.
    split; [reflexivity|]. apply derivable_pt_lim_const.
  - split; [reflexivity|]. apply derivable_pt_lim_const.
  - intros st' E (L1 & L2 & H). specialize (H 0%nat ltac:(lia)). destruct H as [H _]. cbn in H.
    cbv [jv_Multiply_vel jnt_Multiply jnt_Add eigen_unary eigen_binary eigen_assign jv_q jv_qdot d1t d1g one_joint
      length Nat.eqb for_loop aget nth_error obind aset Nat.ltb Nat.leb upd s_put] in E.
    injection E as <-. cbn in H. lra.
Qed.
Lemma jv_div_alias_wrong : exists st a k c f t n,
  jv_layout [a; a] /\ jv_follows n c t st a /\ carries1 f t k /\ f t <> 0 /\
  forall st', jv_Divide_vel st a k a = Ret st' -> ~ jv_follows n (fun i s => c i s / f s) t st' a.
Proof.
  exists (one_joint 1 0 0), (mkJV 0%nat 1%nat), (mkD1 2 0), (fun _ _ => 1), (fun _ => 2), 0, 1%nat.
  split; [|split; [|split; [|split]]].
  - intros x y [<-|[<-|[]]] [<-|[<-|[]]]; simpl; discriminate.
  - split; [reflexivity|split; [reflexivity|]]. intros i Hi. assert (i = 0%nat) by lia; subst i. simpl.
    split; [reflexivity|]. apply derivable_pt_lim_const.
  - split; [reflexivity|]. apply derivable_pt_lim_const.
  - lra.
  - intros st' E (L1 & L2 & H). specialize (H 0%nat ltac:(lia)). destruct H as [H _]. cbn in H.
    cbv [jv_Divide_vel jnt_Multiply jnt_Divide jnt_Subtract eigen_unary eigen_binary eigen_assign jv_q jv_qdot d1t d1g one_joint
      length Nat.eqb for_loop aget nth_error obind aset Nat.ltb Nat.leb upd s_put] in E.
    injection E as <-. cbn in H. lra.
Qed.
Lemma ja_mul_alias_wrong : exists st a k c f t n,
  ja_layout [a; a] /\ ja_follows n c t st a /\ carries2 f t k /\
  forall st', ja_Multiply_acc st a k a = Ret st' -> ~ ja_follows n (fun i s => f s * c i s) t st' a.
Proof.
  exists (one_joint 1 0 0), (mkJA 0%nat 1%nat 2%nat), (mkD2 2 0 0), (fun _ _ => 1), (fun _ => 2), 0, 1%nat.
  split; [|split; [|split]].
  - intros x y [<-|[<-|[]]] [<-|[<-|[]]]; simpl; repeat split; discriminate.
  - split; [reflexivity|split; [reflexivity|split; [reflexivity|]]]. intros i Hi. assert (i = 0%nat) by lia; subst i. simpl.
    split; [reflexivity|]. exists (fun _ => 0). split.
    + exists 1. split; [lra|]. intros. apply derivable_pt_lim_const.
    + split; [reflexivity|]. apply derivable_pt_lim_const.
  - split; [reflexivity|]. exists (fun _ => 0). split.
    + exists 1. split; [lra|]. intros. apply derivable_pt_lim_const.
    + split; [reflexivity|]. apply derivable_pt_lim_const.
  - intros st' E (L1 & L2 & L3 & H). specialize (H 0%nat ltac:(lia)). destruct H as [H _]. cbn in H.
    cbv [ja_Multiply_acc jnt_Multiply jnt_Add eigen_unary eigen_binary eigen_assign ja_q ja_qdot ja_qdd d2t d2d d2dd one_joint
      length Nat.eqb for_loop aget nth_error obind aset Nat.ltb Nat.leb upd s_put] in E.
    injection E as <-. cbn in H. lra.
Qed.

(** The hypotheses of the statements above are met by a two-joint motion. *)
Example jv_witness :
  let st := fun r => match r with 0%nat => [1; 2] | 1%nat => [3; -1] | _ => [] end in
  jv_follows 2 (fun i s => match i with 0%nat => 1 + 3 * s | _ => 2 - s end) 0 st (mkJV 0%nat 1%nat) /\
  jv_layout [mkJV 0%nat 1%nat; mkJV 2%nat 3%nat] /\ jv_apart (mkJV 0%nat 1%nat) (mkJV 2%nat 3%nat).
Proof.
  split; [|split].
  - split; [reflexivity|split; [reflexivity|]]. intros i Hi. cbn [jv_q jv_qdot].
    destruct i as [|[|i]]; [| |lia]; cbn [nth]; (split; [simpl; ring|]); cbn [d1g].
    + assert (D : derivable_pt_lim (fun s => 1 + 3 * s) 0 (0 + (0 * 0 + 3 * 1))).
      { apply (derivable_pt_lim_plus (fun _ => 1) (fun s => 3 * s)); [apply derivable_pt_lim_const|].
        apply (derivable_pt_lim_mult (fun _ => 3) (fun s => s)); [apply derivable_pt_lim_const|apply derivable_pt_lim_id]. }
      replace (0 + (0 * 0 + 3 * 1)) with 3 in D by ring. exact D.
    + assert (D : derivable_pt_lim (fun s => 2 - s) 0 (0 - 1)).
      { apply (derivable_pt_lim_minus (fun _ => 2) (fun s => s)); [apply derivable_pt_lim_const|apply derivable_pt_lim_id]. }
      replace (0 - 1) with (-1) in D by ring. exact D.
  - intros x y [<-|[<-|[]]] [<-|[<-|[]]]; simpl; discriminate.
  - split; simpl; discriminate.
Qed.

Lemma jv_zero_ok n st a : jv_q a <> jv_qdot a -> sized st n (jv_q a) -> sized st n (jv_qdot a) ->
  exists st', jv_SetToZero st a = Ret st' /\ jv_follows n (fun _ _ => 0) 0 st' a /\ only_changed st st' (jv_members a).
Proof.
  destruct a as [aq av]. intros N S1 S2. fields. unfold jv_SetToZero. fields.
  destruct (jnt_zero_ok st aq) as (s & -> & (L & V) & O). cbn [obind].
  destruct (jnt_zero_ok s av) as (s0 & -> & (L0 & V0) & O0). unfold sized in *.
  assert (Ea : s av = st av) by (apply O; simpl; intuition congruence).
  assert (Eq : s0 aq = s aq) by (apply O0; simpl; intuition congruence).
  eexists. split; [reflexivity|]. split.
  - split; [|split]; unfold sized; fields; [congruence|congruence|].
    intros i Hi. rewrite Eq, V, V0 by (rewrite ?Ea; lia).
    split; [reflexivity|]. apply derivable_pt_lim_const.
  - intros r Hr. simpl in Hr. rewrite O0, O; auto; simpl; intuition.
Qed.

Lemma jv_equal_iff st a b eps : jv_Equal st a b eps = true <->
  jnt_Equal (st (jv_q a)) (st (jv_q b)) eps = true /\ jnt_Equal (st (jv_qdot a)) (st (jv_qdot b)) eps = true.
Proof. unfold jv_Equal. apply andb_true_iff. Qed.
Lemma ja_equal_iff st a b eps : ja_Equal st a b eps = true <->
  jnt_Equal (st (ja_q a)) (st (ja_q b)) eps = true /\ jnt_Equal (st (ja_qdot a)) (st (ja_qdot b)) eps = true /\
  jnt_Equal (st (ja_qdd a)) (st (ja_qdd b)) eps = true.
Proof. unfold ja_Equal. rewrite !andb_true_iff. tauto. Qed.
