(** The composite rigid body algorithm computes the mass matrix entries. *)
From Coq Require Import String Reals List Arith Lia Lra ZArith Bool FunctionalExtensionality.
From Verif Require Import FramesModel FramesSpec FramesProofs FrameOpsProofs RotationProofs Outcome LoopProofs InertiaModel InertiaSpec
  InertiaProofs DualModel KinModel KinSpec KinProofs JacProofs LinModel LinSpec SumProofs DynModel DynSpec SpatialProofs RneProofs.
Import ListNotations.
Local Open Scope R_scope.

Lemma zmset_nat H a b x : zmset H (Z.of_nat a) (Z.of_nat b) x = mset H a b x.
Proof. unfold zmset. destruct (Z.ltb_spec (Z.of_nat a) 0), (Z.ltb_spec (Z.of_nat b) 0); try lia. cbn [orb]. rewrite !Nat2Z.id. reflexivity. Qed.
Lemma zmget_nat H a b : zmget H (Z.of_nat a) (Z.of_nat b) = mget H a b.
Proof. unfold zmget. destruct (Z.ltb_spec (Z.of_nat a) 0), (Z.ltb_spec (Z.of_nat b) 0); try lia. cbn [orb]. rewrite !Nat2Z.id. reflexivity. Qed.

(** only joint m moves, at unit rate: momentum derivative of link j, and the
    force at link i *)
Definition uforce c q m (j : nat) : Wrench := rb_app (sI (seg c j)) (bt (LX c q) (LA c q) (only m) (S j)).
Definition ufull c q m i := full (ch_ns c) (LX c q) (uforce c q m) i.
Definition lcomp c q i t := comp (ch_ns c) (LX c q) (fun j => sI (seg c j)) i t.

Lemma mass_fwd c q : chain_ok c -> length q = ch_nj c -> let n := ch_ns c in
  exists k Is Xs Ss, for_loop n 0 (mass_fwd_body c q) (0%nat, repeat ab_zero n, repeat f_id n, repeat t_zero n) = Ret (k, Is, Xs, Ss) /\
    arr Is n n (fun i => ab_of_rb (sI (seg c i))) /\ arr Xs n n (LX c q) /\ arr Ss n n (LA c q).
Proof.
  intros Hok Hq n. pose proof Hok as [Hw _].
  destruct (for_loop_inv (fun k st => let '(j, Is, Xs, Ss) := st in j = kidx c k /\
      arr Is n k (fun i => ab_of_rb (sI (seg c i))) /\ arr Xs n k (LX c q) /\ arr Ss n k (LA c q)) (mass_fwd_body c q) n 0
      (0%nat, repeat ab_zero n, repeat f_id n, repeat t_zero n)) as ([[[j Is] Xs] Ss] & E & _ & A1 & A2 & A3).
  - intros k [[[j Is] Xs] Ss] Hk (-> & AI & AX & AS). unfold mass_fwd_body. rewrite seg_get by (auto; lia). cbn [obind].
    destruct (arr_set Is n k (fun i => ab_of_rb (sI (seg c i))) _ AI ltac:(lia) eq_refl) as (Is' & -> & AI'). cbn [obind].
    assert (HR : (if moving (seg c k) then let! x := aget q (kidx c k) in Ret (x, S (kidx c k)) else Ret (0, kidx c k)) = Ret (jv c q k, kidx c (S k))).
    { rewrite kidx_S by (auto; lia). change (moving (seg c k)) with (mv c k). destruct (mv c k) eqn:Em.
      - rewrite !jv_get by (auto; lia). cbn [obind]. rewrite Nat.add_1_r. reflexivity.
      - rewrite !jv_fixed by exact Em. rewrite Nat.add_0_r. reflexivity. }
    rewrite HR. cbn [obind].
    destruct (arr_set Xs n k (LX c q) (segment_pose (seg c k) (jv c q k)) AX ltac:(lia) eq_refl) as (Xs' & -> & AX'). cbn [obind].
    rewrite (arr_get Xs' n (S k) _ k AX' ltac:(lia)). cbn [obind].
    destruct (arr_set Ss n k (LA c q) (r_invapp_t (fM (LX c q k)) (segment_twist (seg c k) (jv c q k) 1)) AS ltac:(lia) eq_refl) as (Ss' & -> & AS'). cbn [obind].
    eexists. split; [reflexivity|]. cbv beta iota. auto.
  - split; [reflexivity|]. do 2 (split; [apply arr_nil, repeat_length|]). apply arr_nil, repeat_length.
  - exists j, Is, Xs, Ss. auto.
Qed.

Lemma mass_up_ok c q i : chain_ok c -> (i < ch_ns c)%nat -> mv c i = true -> forall Xs Ss,
  arr Xs (ch_ns c) (ch_ns c) (LX c q) -> arr Ss (ch_ns c) (ch_ns c) (LA c q) -> forall l H, (l <= i)%nat ->
  mrows H = ch_nj c -> mcols H = ch_nj c ->
  exists H', mass_up c Xs Ss (Z.of_nat (kidx c i)) l (Z.of_nat (kidx c l)) (ufull c q i l) H = Ret H' /\
    mrows H' = ch_nj c /\ mcols H' = ch_nj c /\
    (forall a, (a < l)%nat -> mv c a = true ->
       mentry H' (kidx c i) (kidx c a) = tw_dot (LA c q a) (ufull c q i a) /\
       mentry H' (kidx c a) (kidx c i) = tw_dot (LA c q a) (ufull c q i a)) /\
    (forall a b, ~ (a = kidx c i /\ (b < kidx c l)%nat) -> ~ (b = kidx c i /\ (a < kidx c l)%nat) -> mentry H' a b = mentry H a b).
Proof.
  intros Hok Hi Mi Xs Ss AX AS. pose proof Hok as [Hw _]. pose proof (kidx_lt c i Hw Hi Mi) as Ki.
  induction l as [|l IH]; intros H Hl R1 R2; cbn [mass_up].
  - exists H. split; [reflexivity|]. do 2 (split; [assumption|]). split; [intros; lia|auto].
  - rewrite (arr_get Xs _ _ _ (S l) AX ltac:(lia)). cbn [obind]. rewrite seg_get by (auto; lia). cbn [obind].
    assert (EF : f_app_w (LX c q (S l)) (ufull c q i (S l)) = ufull c q i l).
    { symmetry. unfold ufull. apply full_below; lia. }
    rewrite EF. pose proof (kidx_S c l Hw ltac:(lia)) as Kl. change (moving (seg c l)) with (mv c l).
    destruct (mv c l) eqn:Ml.
    + replace (Z.of_nat (kidx c (S l)) - 1)%Z with (Z.of_nat (kidx c l)) by lia.
      pose proof (kidx_mono c (S l) i Hw ltac:(lia) ltac:(lia)) as Km.
      rewrite (arr_get Ss _ _ _ l AS ltac:(lia)). cbn [obind]. rewrite zmset_nat, mset_ok by lia. cbn [obind].
      rewrite zmget_nat, mget_ok by (cbn [mupd mrows mcols]; lia). cbn [obind]. rewrite zmset_nat, mset_ok by (cbn [mupd mrows mcols]; lia). cbn [obind].
      rewrite mupd_same.
      destruct (IH (mupd (mupd H (kidx c i) (kidx c l) (tw_dot (LA c q l) (ufull c q i l))) (kidx c l) (kidx c i) (tw_dot (LA c q l) (ufull c q i l)))) as (H' & -> & S1 & S2 & S3 & S4);
        [lia|exact R1|exact R2|].
      exists H'. split; [reflexivity|]. do 2 (split; [assumption|]). split.
      * intros a Ha Ma. destruct (Nat.eq_dec a l) as [->|Ne]; [|apply S3; auto; lia].
        rewrite !S4 by lia. split.
        -- rewrite mupd_other by lia. apply mupd_same.
        -- apply mupd_same.
      * intros a b N1 N2. rewrite S4 by lia. rewrite !mupd_other by lia. reflexivity.
    + replace (kidx c (S l)) with (kidx c l) by lia.
      destruct (IH H) as (H' & -> & S1 & S2 & S3 & S4); [lia|exact R1|exact R2|].
      exists H'. split; [reflexivity|]. do 2 (split; [assumption|]). split; [|exact S4].
      intros a Ha Ma. apply S3; auto. assert (a <> l) by congruence. lia.
Qed.

(** mass matrix entry of the segments i >= l *)
Definition lmass c q i l : R :=
  tw_dot (LA c q l) (ufull c q i l) + if Nat.eqb i l then jinertia (sjoint (seg c i)) else 0.

Lemma mass_bwd c q n Xs Ss Is H : chain_ok c -> n = ch_ns c ->
  arr Is n n (fun i => ab_of_rb (sI (seg c i))) -> arr Xs n n (LX c q) -> arr Ss n n (LA c q) ->
  mrows H = ch_nj c -> mcols H = ch_nj c ->
  exists k Is' H', for_loop n 0 (mass_bwd_body c n Xs Ss) ((Z.of_nat (ch_nj c) - 1)%Z, Is, H) = Ret (k, Is', H') /\
    mrows H' = ch_nj c /\ mcols H' = ch_nj c /\
    forall i l, (l <= i < n)%nat -> mv c i = true -> mv c l = true ->
      mentry H' (kidx c i) (kidx c l) = lmass c q i l /\ mentry H' (kidx c l) (kidx c i) = lmass c q i l.
Proof.
  intros Hok -> AI AX AS HR HC. pose proof Hok as [Hw _]. set (n := ch_ns c) in *.
  destruct (for_loop_inv (fun t st => let '(k, Is, H) := st in
      k = (Z.of_nat (kidx c (n - t)) - 1)%Z /\ length Is = n /\
      (forall i, (i < n - t)%nat -> exists J, nth_error Is i = Some J /\ symmetric3 (ab_M J) /\
          forall u, ab_app J u = if Nat.eqb (S i) (n - t) then lcomp c q i u else rb_app (sI (seg c i)) u) /\
      mrows H = ch_nj c /\ mcols H = ch_nj c /\
      forall i l, (n - t <= i < n)%nat -> (l <= i)%nat -> mv c i = true -> mv c l = true ->
        mentry H (kidx c i) (kidx c l) = lmass c q i l /\ mentry H (kidx c l) (kidx c i) = lmass c q i l)
      (mass_bwd_body c n Xs Ss) n 0 ((Z.of_nat (ch_nj c) - 1)%Z, Is, H)) as ([[k Is'] H'] & E & _ & _ & _ & F1 & F2 & F3).
  - intros t [[k Is0] H0] Ht (Ek & LI & HI & R1 & R2 & HH). unfold mass_bwd_body.
    set (i := (n - 1 - t)%nat). assert (Hi : (i < n)%nat) by (unfold i; lia). assert (Hn : (n - t = S i)%nat) by (unfold i; lia).
    assert (Hn' : (n - S t = i)%nat) by (unfold i; lia). rewrite Hn in *. rewrite Hn'.
    destruct (HI i ltac:(lia)) as (Ji & Ei & Yi & Ai). rewrite Nat.eqb_refl in Ai.
    assert (HIs : exists Is1, (if Nat.eqb i 0 then Ret Is0
       else
         let! Ip := aget Is0 (i - 1) in
         let! Xi := aget Xs i in
         let! Ii := aget Is0 i in
         aset Is0 (i - 1) (ab_add Ip (f_app_ab Xi Ii))) = Ret Is1 /\ length Is1 = n /\ aget Is1 i = Ret Ji /\
       (forall k, (k < i)%nat -> exists J, nth_error Is1 k = Some J /\ symmetric3 (ab_M J) /\
          forall u, ab_app J u = if Nat.eqb (S k) i then lcomp c q k u else rb_app (sI (seg c k)) u)).
    { destruct (Nat.eqb_spec i 0) as [E0|E0].
      - exists Is0. split; [reflexivity|]. split; [exact LI|]. split; [unfold aget; rewrite Ei; reflexivity|]. intros; lia.
      - destruct (HI (i - 1)%nat ltac:(lia)) as (Jp & Ep & Yp & Ap). destruct (Nat.eqb_spec (S (i - 1)) (S i)) as [E1|_]; [lia|].
        unfold aget at 1. rewrite Ep. cbn [obind]. rewrite (arr_get Xs n n _ i AX Hi). cbn [obind].
        unfold aget at 1. rewrite Ei. cbn [obind]. rewrite aset_ret by lia. eexists. split; [reflexivity|].
        split; [rewrite upd_length; exact LI|]. split.
        + unfold aget. rewrite nth_error_upd_other by lia. rewrite Ei. reflexivity.
        + intros m Hm. destruct (Nat.eq_dec m (i - 1)) as [->|Ne].
          * rewrite nth_error_upd_same by lia. eexists. split; [reflexivity|]. split; [apply sym_add; [exact Yp|apply ab_sym_M_frame, Yi]|]. intros u.
            destruct (Nat.eqb_spec (S (i - 1)) i); [|lia]. rewrite ab_app_add, Ap. unfold lcomp. rewrite comp_S by (fold n; lia).
            replace (S (i - 1)) with i by lia. f_equal.
            rewrite <- (f_app_invapp_t (LX c q i) u (LX_rigid c q i Hok)) at 1. rewrite ab_app_frame by (try apply LX_rigid; assumption).
            f_equal. rewrite Ai. reflexivity.
          * rewrite nth_error_upd_other by auto. destruct (HI m ltac:(lia)) as (J & EJ & YJ & AJ). exists J. split; [exact EJ|]. split; [exact YJ|].
            intros u. rewrite AJ. destruct (Nat.eqb_spec (S m) (S i)), (Nat.eqb_spec (S m) i); try lia; reflexivity. }
    destruct HIs as (Is1 & -> & L1 & G1 & HI1). cbn [obind]. rewrite G1. cbn [obind].
    rewrite (arr_get Ss n n _ i AS Hi). cbn [obind]. rewrite seg_get by auto. cbn [obind]. rewrite Ai.
    pose proof (kidx_S c i Hw Hi) as K. change (moving (seg c i)) with (mv c i). destruct (mv c i) eqn:Em.
    + pose proof (kidx_lt c i Hw Hi Em) as KL. assert (Ek' : k = Z.of_nat (kidx c i)) by lia. rewrite Ek'. clear Ek Ek'.
      rewrite zmset_nat, mset_ok by lia. cbn [obind]. rewrite zmget_nat, mget_ok by (cbn [mupd mrows mcols]; lia). cbn [obind].
      rewrite zmset_nat, mset_ok by (cbn [mupd mrows mcols]; lia). cbn [obind]. rewrite mupd_same, mupd_mupd.
      assert (EF : lcomp c q i (LA c q i) = ufull c q i i).
      { unfold lcomp, ufull. rewrite <- (bt_only_at (LX c q) (LA c q) i) at 1. symmetry.
        apply (full_comp (ch_ns c) (LX c q) (LA c q) (fun j => sI (seg c j)) i (ch_ns c - S i) i); fold n; lia. }
      rewrite EF.
      destruct (mass_up_ok c q i Hok Hi Em Xs Ss AX AS i (mupd H0 (kidx c i) (kidx c i) (tw_dot (LA c q i) (ufull c q i i) + jinertia (sjoint (seg c i)))) (le_n _) R1 R2)
        as (H1 & -> & S1 & S2 & S3 & S4). cbn [obind].
      eexists. split; [reflexivity|]. cbv beta iota. split; [reflexivity|]. split; [exact L1|]. split; [exact HI1|]. do 2 (split; [assumption|]).
      intros a l Ha Hl Ma Mll. destruct (Nat.eq_dec a i) as [->|Ne].
      * destruct (Nat.eq_dec l i) as [->|Nl].
        -- rewrite S4 by lia. rewrite mupd_same. unfold lmass. rewrite Nat.eqb_refl. auto.
        -- unfold lmass. destruct (Nat.eqb_spec i l); [lia|]. rewrite Rplus_0_r. apply S3; auto. lia.
      * assert (Kn : kidx c a <> kidx c i) by (intros Q; apply Ne; apply (kidx_inj c a i); auto; lia).
        assert (Kg : (kidx c i < kidx c a)%nat) by (pose proof (kidx_mono c i a Hw ltac:(lia) ltac:(lia)); lia).
        rewrite !S4 by lia. rewrite !mupd_other by lia. apply HH; auto. lia.
    + eexists. split; [reflexivity|]. cbv beta iota. split; [rewrite Ek; lia|]. split; [exact L1|]. split; [exact HI1|]. do 2 (split; [assumption|]).
      intros a l Ha Hl Ma Mll. apply HH; auto. assert (a <> i) by congruence. lia.
  - rewrite Nat.sub_0_r. destruct AI as [LI HI]. split; [unfold n; rewrite kidx_all by auto; reflexivity|]. split; [exact LI|].
    split; [|split; [exact HR|split; [exact HC|intros; lia]]].
    intros i Hi. rewrite (HI i Hi). eexists. split; [reflexivity|]. split; [apply ab_of_rb_M_sym|]. intros u. rewrite ab_of_rb_app.
    destruct (Nat.eqb_spec (S i) n) as [Ei|]; [|reflexivity].
    unfold lcomp. rewrite comp_S by (fold n; lia). fold n. rewrite Ei, comp_end, f_app_w_zero, w_add_0_r. reflexivity.
  - exists k, Is', H'. split; [exact E|]. do 2 (split; [assumption|]). intros i l Hil Mi Ml. apply F3; auto; lia.
Qed.


Lemma mass_result c st q H : chain_ok c -> dyn_current c st -> length q = ch_nj c -> mrows H = ch_nj c -> mcols H = ch_nj c ->
  exists H', dyn_JntToMass c st q H = Ret (E_NOERROR, H') /\ mrows H' = ch_nj c /\ mcols H' = ch_nj c /\
    forall i l, (l <= i < ch_ns c)%nat -> mv c i = true -> mv c l = true ->
      mentry H' (kidx c i) (kidx c l) = lmass c q i l /\ mentry H' (kidx c l) (kidx c i) = lmass c q i l.
Proof.
  intros Hok [F1 F2] Hq R1 R2. unfold dyn_JntToMass. rewrite F1, F2, Hq, R1, R2, !Nat.eqb_refl. cbn [negb andb orb].
  destruct (mass_fwd c q Hok Hq) as (k & Is & Xs & Ss & -> & AI & AX & AS). cbn [obind].
  destruct (mass_bwd c q (ch_ns c) Xs Ss Is H Hok eq_refl AI AX AS R1 R2) as (k' & Is' & H' & -> & S1 & S2 & S3). cbn [obind].
  exists H'. auto.
Qed.
Lemma mass_stale c st q H : ~ dyn_current c st -> dyn_JntToMass c st q H = Ret (E_NOT_UP_TO_DATE, H).
Proof.
  intros N. unfold dyn_JntToMass, dyn_current in *.
  destruct (Nat.eqb_spec (dp_nj st) (ch_nj c)), (Nat.eqb_spec (dp_ns st) (ch_ns c)); cbn [negb orb]; try reflexivity. exfalso. auto.
Qed.
Lemma mass_mismatch c st q H : dyn_current c st -> ~ (length q = ch_nj c /\ mrows H = ch_nj c /\ mcols H = ch_nj c) ->
  dyn_JntToMass c st q H = Ret (E_SIZE_MISMATCH, H).
Proof.
  intros [F1 F2] N. unfold dyn_JntToMass. rewrite F1, F2, !Nat.eqb_refl. cbn [negb orb].
  destruct (Nat.eqb_spec (length q) (ch_nj c)), (Nat.eqb_spec (mrows H) (ch_nj c)), (Nat.eqb_spec (mcols H) (ch_nj c)); cbn [negb andb]; try reflexivity. exfalso. auto.
Qed.
