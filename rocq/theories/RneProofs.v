(** The recursive Newton-Euler loops compute the forces of SpatialProofs. *)
From Coq Require Import String Reals List Arith Lia Lra ZArith Bool FunctionalExtensionality.
From Verif Require Import FramesModel FramesSpec FramesProofs FrameOpsProofs RotationProofs Outcome LoopProofs InertiaModel InertiaSpec
  InertiaProofs DualModel KinModel KinSpec KinProofs JacProofs LinModel LinSpec SumProofs DynModel DynSpec SpatialProofs.
Import ListNotations.
Local Open Scope R_scope.

(** * Arrays filled from the left *)
Definition arr {A} (l : list A) (n k : nat) (f : nat -> A) : Prop :=
  length l = n /\ forall i, (i < k)%nat -> nth_error l i = Some (f i).
Lemma arr_nil {A} (l : list A) n f : length l = n -> arr l n 0 f.
Proof. intros H. split; [exact H|]. intros i Hi. lia. Qed.
Lemma arr_get {A} (l : list A) n k f i : arr l n k f -> (i < k)%nat -> aget l i = Ret (f i).
Proof. intros [_ H] Hi. unfold aget. rewrite (H i Hi). reflexivity. Qed.
Lemma arr_set {A} (l : list A) n k f a : arr l n k f -> (k < n)%nat -> a = f k ->
  exists l', aset l k a = Ret l' /\ arr l' n (S k) f.
Proof.
  intros [Hl H] Hk ->. exists (upd l k (f k)). split; [apply aset_ret; lia|]. split; [rewrite upd_length; exact Hl|].
  intros i Hi. destruct (Nat.eq_dec i k) as [->|Ne].
  - apply nth_error_upd_same. lia.
  - rewrite nth_error_upd_other by auto. apply H. lia.
Qed.

(** * Segments and joint values by index *)
Definition seg0 : Segment := mkS "" (mkJ "" Fixed 1 0 0 0 0 v_zero v_zero) rb_zero f_id.
Definition seg (c : Chain) (i : nat) : Segment := nth i (ch_segs c) seg0.
Definition kidx (c : Chain) (i : nat) : nat := count_moving (firstn i (ch_segs c)).
Definition mv (c : Chain) (i : nat) : bool := moving (seg c i).
(** the entry of a joint array that belongs to segment i (0 for a fixed joint) *)
Definition jv (c : Chain) (q : list R) (i : nat) : R := if mv c i then nth (kidx c i) q 0 else 0.
Definition LX (c : Chain) (q : list R) (i : nat) : Frame := segment_pose (seg c i) (jv c q i).
Definition LA (c : Chain) (q : list R) (i : nat) : Twist :=
  r_invapp_t (fM (LX c q i)) (segment_twist (seg c i) (jv c q i) 1).

Lemma seg_get c i : chain_wf c -> (i < ch_ns c)%nat -> chain_getSegment c i = Ret (seg c i).
Proof. intros [H _] Hi. unfold chain_getSegment, seg. apply aget_nth. lia. Qed.
Lemma seg_nth c i : chain_wf c -> (i < ch_ns c)%nat -> nth_error (ch_segs c) i = Some (seg c i).
Proof. intros [H _] Hi. unfold seg. apply nth_error_nth'. lia. Qed.
Lemma seg_ok c i : chain_ok c -> segment_ok (seg c i).
Proof.
  intros [_ H]. unfold seg. destruct (lt_dec i (length (ch_segs c))) as [L|L].
  - rewrite Forall_forall in H. apply H, nth_In, L.
  - rewrite nth_overflow by lia. split; [intros E; discriminate E|exact is_rotation_id].
Qed.
Lemma LX_rigid c q i : chain_ok c -> rigid (LX c q i).
Proof. intros H. apply segment_pose_rigid, seg_ok, H. Qed.
Lemma kidx_S c i : chain_wf c -> (i < ch_ns c)%nat -> kidx c (S i) = (kidx c i + if mv c i then 1 else 0)%nat.
Proof. intros H Hi. unfold kidx. rewrite (count_snoc i _ (seg c i)) by (apply seg_nth; auto). reflexivity. Qed.
Lemma kidx_0 c : kidx c 0 = 0%nat. Proof. reflexivity. Qed.
Lemma kidx_all c : chain_wf c -> kidx c (ch_ns c) = ch_nj c.
Proof. intros [H J]. unfold kidx. rewrite H, firstn_all. auto. Qed.
Lemma kidx_mono c i j : chain_wf c -> (i <= j)%nat -> (j <= ch_ns c)%nat -> (kidx c i <= kidx c j)%nat.
Proof.
  intros H. induction j as [|j IH]; intros Hi Hj; [replace i with 0%nat by lia; lia|].
  destruct (Nat.eq_dec i (S j)) as [->|Ne]; [lia|]. rewrite kidx_S by (auto; lia). specialize (IH ltac:(lia) ltac:(lia)). lia.
Qed.
Lemma kidx_lt c i : chain_wf c -> (i < ch_ns c)%nat -> mv c i = true -> (kidx c i < ch_nj c)%nat.
Proof.
  intros H Hi Hm. pose proof (kidx_S c i H Hi) as K. rewrite Hm in K. rewrite <- (kidx_all c H).
  pose proof (kidx_mono c (S i) (ch_ns c) H ltac:(lia) ltac:(lia)). lia.
Qed.
Lemma kidx_inj c i j : chain_wf c -> (i < ch_ns c)%nat -> (j < ch_ns c)%nat -> mv c i = true -> mv c j = true ->
  kidx c i = kidx c j -> i = j.
Proof.
  intros H Hi Hj Mi Mj E.
  assert (G : forall a b, (a < b)%nat -> (b < ch_ns c)%nat -> mv c a = true -> (kidx c a < kidx c b)%nat).
  { intros a b Hab Hb Ma. pose proof (kidx_S c a H ltac:(lia)) as K. rewrite Ma in K.
    pose proof (kidx_mono c (S a) b H ltac:(lia) ltac:(lia)). lia. }
  destruct (lt_eq_lt_dec i j) as [[L|L]|L]; auto.
  - specialize (G i j L Hj Mi). lia.
  - specialize (G j i L Hi Mj). lia.
Qed.
(** every joint index belongs to a segment *)
Lemma joint_segment c k : chain_wf c -> (k < ch_nj c)%nat -> exists i, (i < ch_ns c)%nat /\ mv c i = true /\ kidx c i = k.
Proof.
  intros H Hk. rewrite <- (kidx_all c H) in Hk. revert Hk. generalize (le_n (ch_ns c)). generalize (ch_ns c) at 1 3 as m.
  induction m as [|m IH]; intros Hm Hk; [rewrite kidx_0 in Hk; lia|].
  rewrite kidx_S in Hk by (auto; lia). destruct (mv c m) eqn:E.
  - destruct (Nat.eq_dec (kidx c m) k) as [<-|Ne]; [exists m; auto|]. destruct IH as (i & Hi & R); [lia|lia|]. exists i. auto.
  - destruct IH as (i & Hi & R); [lia|lia|]. exists i. auto.
Qed.
Lemma jv_get c q i : chain_wf c -> length q = ch_nj c -> (i < ch_ns c)%nat -> mv c i = true -> aget q (kidx c i) = Ret (jv c q i).
Proof. intros H Hq Hi Hm. unfold jv. rewrite Hm. apply aget_nth. pose proof (kidx_lt c i H Hi Hm). lia. Qed.
Lemma jv_fixed c q i : mv c i = false -> jv c q i = 0. Proof. intros H. unfold jv. rewrite H. reflexivity. Qed.
Lemma LA_fixed c q i : mv c i = false -> LA c q i = t_zero.
Proof. intros H. unfold LA. rewrite segment_twist_fixed by exact H. clear. generalize (fM (LX c q i)). geo. Qed.
Lemma r_invapp_t_scale M t s : r_invapp_t M (t_scale t s) = t_scale (r_invapp_t M t) s. Proof. geo. Qed.
Lemma LA_scale c q i x : r_invapp_t (fM (LX c q i)) (segment_twist (seg c i) (jv c q i) x) = t_scale (LA c q i) x.
Proof. rewrite segment_twist_scale, r_invapp_t_scale. reflexivity. Qed.

(** * Velocities, accelerations, link forces *)
Definition lvel c q qd := bt (LX c q) (LA c q) (jv c qd).
Fixpoint lacc c ag q qd qdd (k : nat) : Twist :=
  match k with
  | O => ag
  | S m => t_add (t_add (f_invapp_t (LX c q m) (lacc c ag q qd qdd m)) (t_scale (LA c q m) (jv c qdd m)))
                 (t_cross (lvel c q qd (S m)) (t_scale (LA c q m) (jv c qd m)))
  end.
Definition lforce c ag q qd qdd (fext : list Wrench) (i : nat) : Wrench :=
  let I := sI (seg c i) in let v := lvel c q qd (S i) in
  w_sub (w_add (rb_app I (lacc c ag q qd qdd (S i))) (tw_cross v (rb_app I v))) (nth i fext w_zero).
(** the joint torque of segment i *)
Definition ltau c ag q qd qdd fext (i : nat) : R :=
  tw_dot (LA c q i) (full (ch_ns c) (LX c q) (lforce c ag q qd qdd fext) i) + jinertia (sjoint (seg c i)) * jv c qdd i.

Lemma rne_fwd c ag q qd qdd fext : chain_ok c -> length q = ch_nj c -> length qd = ch_nj c -> length qdd = ch_nj c ->
  length fext = ch_ns c -> let n := ch_ns c in
  exists sw, for_loop n 0 (rne_fwd_body c ag q qd qdd fext)
      (mkSw 0 (repeat f_id n) (repeat t_zero n) (repeat t_zero n) (repeat t_zero n) (repeat w_zero n)) = Ret sw /\
    arr (sw_X sw) n n (LX c q) /\ arr (sw_S sw) n n (LA c q) /\ arr (sw_f sw) n n (lforce c ag q qd qdd fext).
Proof.
  intros Hok Hq Hqd Hqdd Hf n. pose proof Hok as [Hw _].
  destruct (for_loop_inv (fun k sw => sw_j sw = kidx c k /\ arr (sw_X sw) n k (LX c q) /\ arr (sw_S sw) n k (LA c q) /\
      arr (sw_v sw) n k (fun i => lvel c q qd (S i)) /\ arr (sw_a sw) n k (fun i => lacc c ag q qd qdd (S i)) /\
      arr (sw_f sw) n k (lforce c ag q qd qdd fext)) (rne_fwd_body c ag q qd qdd fext) n 0
      (mkSw 0 (repeat f_id n) (repeat t_zero n) (repeat t_zero n) (repeat t_zero n) (repeat w_zero n)))
    as (sw & E & _ & A1 & A2 & _ & _ & A3).
  - intros k [j Xs Ss vs as_ fs] Hk (Ej & AX & AS & AV & AA & AF). cbn [sw_j sw_X sw_S sw_v sw_a sw_f] in *. subst j.
    unfold rne_fwd_body. cbn [sw_j sw_X sw_S sw_v sw_a sw_f]. rewrite seg_get by (auto; lia). cbn [obind].
    assert (HR : (if moving (seg c k) then let! x := aget q (kidx c k) in let! xd := aget qd (kidx c k) in
        let! xdd := aget qdd (kidx c k) in Ret (x, xd, xdd, S (kidx c k)) else Ret (0, 0, 0, kidx c k)) =
        Ret (jv c q k, jv c qd k, jv c qdd k, kidx c (S k))).
    { rewrite kidx_S by (auto; lia). change (moving (seg c k)) with (mv c k). destruct (mv c k) eqn:Em.
      - rewrite !jv_get by (auto; lia). cbn [obind]. rewrite Nat.add_1_r. reflexivity.
      - rewrite !jv_fixed by exact Em. rewrite Nat.add_0_r. reflexivity. }
    rewrite HR. cbn [obind]. clear HR.
    destruct (arr_set Xs n k (LX c q) (segment_pose (seg c k) (jv c q k)) AX ltac:(lia) eq_refl) as (Xs' & -> & AX'). cbn [obind].
    rewrite (arr_get Xs' n (S k) _ k AX' ltac:(lia)). cbn [obind].
    destruct (arr_set Ss n k (LA c q) (r_invapp_t (fM (LX c q k)) (segment_twist (seg c k) (jv c q k) 1)) AS ltac:(lia) eq_refl) as (Ss' & -> & AS'). cbn [obind].
    rewrite (arr_get Ss' n (S k) _ k AS' ltac:(lia)). cbn [obind].
    rewrite LA_scale.
    assert (HVA : exists vs' as', (if Nat.eqb k 0 then
         let! vs0 := aset vs k (t_scale (LA c q k) (jv c qd k)) in
         let! vi := aget vs0 k in
         let! as0 := aset as_ k (t_add (t_add (f_invapp_t (LX c q k) ag) (t_scale (LA c q k) (jv c qdd k))) (t_cross vi (t_scale (LA c q k) (jv c qd k)))) in
         Ret (vs0, as0)
       else
         let! vp := aget vs (k - 1) in
         let! vs0 := aset vs k (t_add (f_invapp_t (LX c q k) vp) (t_scale (LA c q k) (jv c qd k))) in
         let! vi := aget vs0 k in
         let! ap := aget as_ (k - 1) in
         let! as0 := aset as_ k (t_add (t_add (f_invapp_t (LX c q k) ap) (t_scale (LA c q k) (jv c qdd k))) (t_cross vi (t_scale (LA c q k) (jv c qd k)))) in
         Ret (vs0, as0)) = Ret (vs', as') /\ arr vs' n (S k) (fun i => lvel c q qd (S i)) /\ arr as' n (S k) (fun i => lacc c ag q qd qdd (S i))).
    { destruct k as [|k]; cbn [Nat.eqb].
      - destruct (arr_set vs n 0 (fun i => lvel c q qd (S i)) (t_scale (LA c q 0) (jv c qd 0)) AV ltac:(lia)) as (vs' & -> & AV').
        { unfold lvel. cbn [bt]. rewrite f_invapp_t_zero, t_add_0_l. reflexivity. }
        cbn [obind]. rewrite (arr_get vs' n 1 _ 0 AV' ltac:(lia)). cbn [obind].
        destruct (arr_set as_ n 0 (fun i => lacc c ag q qd qdd (S i)) _ AA ltac:(lia) eq_refl) as (as' & E & AA').
        exists vs', as'. cbn [lacc] in E. rewrite E. auto.
      - replace (S k - 1)%nat with k by lia. rewrite (arr_get vs n (S k) _ k AV ltac:(lia)). cbn [obind].
        destruct (arr_set vs n (S k) (fun i => lvel c q qd (S i)) _ AV ltac:(lia) eq_refl) as (vs' & E & AV').
        unfold lvel in E at 1. cbn [bt] in E. fold (lvel c q qd (S k)) in E.
        change (t_add (f_invapp_t (LX c q k) (bt (LX c q) (LA c q) (jv c qd) k)) (t_scale (LA c q k) (jv c qd k))) with (lvel c q qd (S k)) in E.
        rewrite E. cbn [obind]. rewrite (arr_get vs' n (S (S k)) _ (S k) AV' ltac:(lia)). cbn [obind].
        rewrite (arr_get as_ n (S k) _ k AA ltac:(lia)). cbn [obind].
        destruct (arr_set as_ n (S k) (fun i => lacc c ag q qd qdd (S i)) _ AA ltac:(lia) eq_refl) as (as' & E' & AA').
        exists vs', as'. change (lacc c ag q qd qdd (S (S k))) with (t_add (t_add (f_invapp_t (LX c q (S k)) (lacc c ag q qd qdd (S k))) (t_scale (LA c q (S k)) (jv c qdd (S k))))
           (t_cross (lvel c q qd (S (S k))) (t_scale (LA c q (S k)) (jv c qd (S k))))) in E'. rewrite E'. auto. }
    destruct HVA as (vs' & as' & -> & AV' & AA'). cbn [obind].
    rewrite (arr_get vs' n (S k) _ k AV' ltac:(lia)), (arr_get as' n (S k) _ k AA' ltac:(lia)). cbn [obind].
    rewrite (aget_nth fext k w_zero) by lia. cbn [obind].
    destruct (arr_set fs n k (lforce c ag q qd qdd fext) _ AF ltac:(lia) eq_refl) as (fs' & E & AF').
    unfold lforce in E at 1. cbv zeta in E. rewrite E. cbn [obind]. eexists. split; [reflexivity|]. cbn [sw_j sw_X sw_S sw_v sw_a sw_f]. auto 10.
  - cbn [sw_j sw_X sw_S sw_v sw_a sw_f]. split; [reflexivity|]. do 4 (split; [apply arr_nil, repeat_length|]). apply arr_nil, repeat_length.
  - exists sw. auto.
Qed.

Lemma rne_bwd c n Xs Ss F qdd tau q : chain_ok c -> n = ch_ns c -> length qdd = ch_nj c -> length tau = ch_nj c ->
  arr Xs n n (LX c q) -> arr Ss n n (LA c q) -> forall fs, arr fs n n F ->
  exists j fs' tau', for_loop n 0 (rne_bwd_body c n Xs Ss qdd) ((Z.of_nat (ch_nj c) - 1)%Z, fs, tau) = Ret (j, fs', tau') /\
    length tau' = ch_nj c /\
    forall i, (i < n)%nat -> mv c i = true ->
      nth (kidx c i) tau' 0 = tw_dot (LA c q i) (full n (LX c q) F i) + jinertia (sjoint (seg c i)) * jv c qdd i.
Proof.
  intros Hok -> Hqdd Htau AX AS fs AF. pose proof Hok as [Hw _]. set (n := ch_ns c) in *.
  set (T := fun i => tw_dot (LA c q i) (full n (LX c q) F i) + jinertia (sjoint (seg c i)) * jv c qdd i).
  destruct (for_loop_inv (fun t st => let '(j, fs, tau) := st in
      j = (Z.of_nat (kidx c (n - t)) - 1)%Z /\ length fs = n /\
      (forall i, (i < n - t)%nat -> nth_error fs i = Some (if Nat.eqb (S i) (n - t) then full n (LX c q) F i else F i)) /\
      length tau = ch_nj c /\ (forall i, (n - t <= i < n)%nat -> mv c i = true -> nth (kidx c i) tau 0 = T i))
      (rne_bwd_body c n Xs Ss qdd) n 0 ((Z.of_nat (ch_nj c) - 1)%Z, fs, tau)) as ([[j fs'] tau'] & E & _ & _ & _ & Ht & H).
  - intros t [[j fs0] tau0] Ht (Ej & Lf & Hf & Lt & Hd). unfold rne_bwd_body.
    set (i := (n - 1 - t)%nat). assert (Hi : (i < n)%nat) by (unfold i; lia). assert (Hn : (n - t = S i)%nat) by (unfold i; lia).
    assert (Hn' : (n - S t = i)%nat) by (unfold i; lia). rewrite Hn in *. rewrite Hn'.
    rewrite seg_get by auto. cbn [obind].
    assert (Gf : aget fs0 i = Ret (full n (LX c q) F i)).
    { unfold aget. rewrite (Hf i) by lia. rewrite Nat.eqb_refl. reflexivity. }
    assert (HR : exists tau1, (if moving (seg c i) then
         let! Si := aget Ss i in
         let! fi := aget fs0 i in
         let! tau1 := zaset tau0 j (tw_dot Si fi) in
         let! x := zaget tau1 j in
         let! xdd := zaget qdd j in
         let! tau2 := zaset tau1 j (x + jinertia (sjoint (seg c i)) * xdd) in
         Ret ((j - 1)%Z, tau2)
       else Ret (j, tau0)) = Ret ((Z.of_nat (kidx c i) - 1)%Z, tau1) /\ length tau1 = ch_nj c /\
       (forall k, (i <= k < n)%nat -> mv c k = true -> nth (kidx c k) tau1 0 = T k)).
    { pose proof (kidx_S c i Hw Hi) as K. change (moving (seg c i)) with (mv c i). destruct (mv c i) eqn:Em.
      - pose proof (kidx_lt c i Hw Hi Em) as KL.
        assert (Ej' : j = Z.of_nat (kidx c i)) by lia. rewrite Ej' in *. clear Ej'. unfold zaset, zaget.
        destruct (Z.ltb_spec (Z.of_nat (kidx c i)) 0); [lia|]. rewrite Nat2Z.id.
        rewrite (arr_get Ss n n _ i AS Hi), Gf. cbn [obind]. rewrite aset_ret by lia. cbn [obind].
        rewrite !agetR by (rewrite ?upd_length; lia). cbn [obind]. rewrite aset_ret by (rewrite upd_length; lia). cbn [obind].
        eexists. split; [reflexivity|]. split; [rewrite !upd_length; exact Lt|].
        intros k Hk Mk. destruct (Nat.eq_dec k i) as [->|Ne].
        + rewrite nth_upd_same by (rewrite upd_length; lia). rewrite nth_upd_same by lia. unfold T, jv. rewrite Em. reflexivity.
        + rewrite !nth_upd_other; [apply Hd; auto; lia| |]; intros Ek; apply Ne; symmetry; apply (kidx_inj c i k); auto; lia.
      - exists tau0. split; [|split; [exact Lt|]].
        + do 2 f_equal. rewrite Ej. lia.
        + intros k Hk Mk. apply Hd; auto. assert (k <> i) by congruence. lia. }
    destruct HR as (tau1 & -> & Lt1 & Hd1). cbn [obind].
    destruct (Nat.eqb_spec i 0) as [Ei|Ei].
    + eexists. split; [reflexivity|]. split; [reflexivity|]. split; [exact Lf|]. split; [intros k Hk; lia|]. auto.
    + unfold aget at 1. rewrite (Hf (i - 1)%nat) by lia. destruct (Nat.eqb_spec (S (i - 1)) (S i)); [lia|]. cbn [obind].
      rewrite (arr_get Xs n n _ i AX Hi), Gf. cbn [obind]. rewrite aset_ret by lia. cbn [obind].
      eexists. split; [reflexivity|]. split; [reflexivity|]. split; [rewrite upd_length; exact Lf|]. split; [|auto].
      intros k Hk. destruct (Nat.eq_dec k (i - 1)) as [->|Ne].
      * rewrite nth_error_upd_same by lia. destruct (Nat.eqb_spec (S (i - 1)) i); [|lia]. unfold full at 2.
        replace (S (i - 1)) with i by lia. rewrite (gf_S n (LX c q) F i Hi). reflexivity.
      * rewrite nth_error_upd_other by auto. rewrite (Hf k) by lia.
        destruct (Nat.eqb_spec (S k) (S i)), (Nat.eqb_spec (S k) i); try lia; reflexivity.
  - rewrite Nat.sub_0_r. destruct AF as [Lf Hf]. split; [unfold n; rewrite kidx_all by auto; reflexivity|]. split; [exact Lf|].
    split; [|split; [exact Htau|intros; lia]].
    intros i Hi. rewrite (Hf i Hi). destruct (Nat.eqb_spec (S i) n) as [Ei|]; [|reflexivity].
    unfold full. rewrite Ei, gf_end, w_add_0_r. reflexivity.
  - exists j, fs', tau'. split; [exact E|]. split; [exact Ht|]. intros i Hi Mi. apply H; auto. lia.
Qed.


Lemma rne_result c st q qd qdd fext tau : chain_ok c -> rne_current c st ->
  length q = ch_nj c -> length qd = ch_nj c -> length qdd = ch_nj c -> length tau = ch_nj c -> length fext = ch_ns c ->
  exists tau', rne_CartToJnt c st q qd qdd fext tau = Ret (E_NOERROR, tau') /\ length tau' = ch_nj c /\
    forall i, (i < ch_ns c)%nat -> mv c i = true -> nth (kidx c i) tau' 0 = ltau c (rn_ag st) q qd qdd fext i.
Proof.
  intros Hok [F1 F2] Hq Hqd Hqdd Ht Hf. unfold rne_CartToJnt. rewrite F1, F2, Hq, Hqd, Hqdd, Ht, Hf, !Nat.eqb_refl. cbn [negb andb orb].
  destruct (rne_fwd c (rn_ag st) q qd qdd fext Hok Hq Hqd Hqdd Hf) as (sw & E & AX & AS & AF). rewrite E. cbn [obind].
  destruct (rne_bwd c (ch_ns c) (sw_X sw) (sw_S sw) _ qdd tau q Hok eq_refl Hqdd Ht AX AS _ AF) as (j & fs & tau' & -> & L & H).
  cbn [obind]. exists tau'. auto.
Qed.
Lemma rne_stale c st q qd qdd fext tau : ~ rne_current c st -> rne_CartToJnt c st q qd qdd fext tau = Ret (E_NOT_UP_TO_DATE, tau).
Proof.
  intros H. unfold rne_CartToJnt, rne_current in *.
  destruct (Nat.eqb_spec (rn_nj st) (ch_nj c)), (Nat.eqb_spec (rn_ns st) (ch_ns c)); cbn [negb orb]; try reflexivity. exfalso. auto.
Qed.
Lemma rne_mismatch c st q qd qdd fext tau : rne_current c st ->
  ~ (length q = ch_nj c /\ length qd = ch_nj c /\ length qdd = ch_nj c /\ length tau = ch_nj c /\ length fext = ch_ns c) ->
  rne_CartToJnt c st q qd qdd fext tau = Ret (E_SIZE_MISMATCH, tau).
Proof.
  intros [F1 F2] H. unfold rne_CartToJnt. rewrite F1, F2, !Nat.eqb_refl. cbn [negb orb].
  destruct (Nat.eqb_spec (length q) (ch_nj c)), (Nat.eqb_spec (length qd) (ch_nj c)), (Nat.eqb_spec (length qdd) (ch_nj c)),
    (Nat.eqb_spec (length tau) (ch_nj c)), (Nat.eqb_spec (length fext) (ch_ns c)); cbn [negb andb]; try reflexivity. exfalso. apply H. auto 10.
Qed.
