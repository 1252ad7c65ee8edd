(** The three sweeps of the hybrid dynamics solver: what they leave in the arrays. *)
From Coq Require Import String Reals List Arith Lia Lra ZArith Bool.
From Verif Require Import FramesModel FramesSpec FramesProofs FrameOpsProofs RotationProofs Outcome LoopProofs InertiaModel InertiaSpec
  InertiaProofs DualModel KinModel KinSpec KinProofs JacProofs LinModel LinSpec SumProofs DynModel DynSpec SpatialProofs RneProofs DynProofs
  LmaModel VelIkModel HdModel HdAbs.
Import ListNotations.
Local Open Scope R_scope.

Lemma nth_upd_eq {A} (l : list A) i a d : (i < length l)%nat -> nth i (upd l i a) d = a.
Proof. intros H. apply nth_error_nth. apply nth_error_upd_same, H. Qed.
Lemma nth_upd_ne {A} (l : list A) i j a d : i <> j -> nth j (upd l i a) d = nth j l d.
Proof.
  intros H. pose proof (nth_error_upd_other l i j a H) as E. revert E. rewrite !nth_nth_error || idtac.
  destruct (nth_error l j) as [y|] eqn:E1; intros E.
  - rewrite (nth_error_nth _ _ _ E), (nth_error_nth _ _ _ E1). reflexivity.
  - apply nth_error_None in E, E1. rewrite !nth_overflow by assumption. reflexivity.
Qed.

Definition all_moving (c : Chain) : Prop := forall i, (i < ch_ns c)%nat -> mv c i = true.
Lemma kidx_moving c i : chain_wf c -> all_moving c -> (i <= ch_ns c)%nat -> kidx c i = i.
Proof.
  intros Hw Hm. induction i as [|i IH]; intros Hi; [reflexivity|]. rewrite kidx_S by (auto; lia). rewrite IH, Hm by lia. lia.
Qed.
Lemma nj_moving c : chain_wf c -> all_moving c -> ch_nj c = ch_ns c.
Proof. intros Hw Hm. rewrite <- (kidx_all c Hw). apply kidx_moving; auto. Qed.
Lemma jv_moving c q i : chain_wf c -> all_moving c -> (i < ch_ns c)%nat -> jv c q i = nth i q 0.
Proof. intros Hw Hm Hi. unfold jv. rewrite Hm, kidx_moving by (auto; lia). reflexivity. Qed.

Definition si0 := si_new 0.
Definition rget (res : list seginfo) (i : nat) : seginfo := nth i res si0.
Lemma rget_get res i : (i < length res)%nat -> aget res i = Ret (rget res i).
Proof. apply aget_nth. Qed.
Lemma rget_same res i s : (i < length res)%nat -> rget (upd res i s) i = s. Proof. apply nth_upd_eq. Qed.
Lemma rget_other res i j s : i <> j -> rget (upd res i s) j = rget res j. Proof. apply nth_upd_ne. Qed.

(** * The first sweep *)
Definition SA (c : Chain) (q qd : list R) (fext : list Wrench) (m : nat) : siA :=
  let v := lvel c q qd (S m) in
  mkSA (LX c q m) (tip_frame c q (S m)) (f_app_t (LX c q m) (LA c q m)) v
       (f_app_t (LX c q m) (t_cross v (t_scale (LA c q m) (jv c qd m)))) (ab_of_rb (sI (seg c m)))
       (w_sub (tw_cross v (ab_app (ab_of_rb (sI (seg c m))) v)) (r_app_w (r_inv (fM (tip_frame c q (S m)))) (nth m fext w_zero))).

Section Sweeps.
Variables (c : Chain) (acc_root : Twist) (q qd : list R) (fext : list Wrench).
Hypothesis Hok : chain_ok c.
Hypothesis Hmv : all_moving c.
Let n := ch_ns c.
Hypothesis Hq : length q = ch_nj c.
Hypothesis Hqd : length qd = ch_nj c.
Hypothesis Hfe : length fext = n.

Lemma tip_S k : (k < n)%nat -> tip_frame c q (S k) = f_mul (tip_frame c q k) (LX c q k).
Proof.
  intros Hk. pose proof Hok as [Hw _].
  apply (tip_frame_S c q k (seg c k) (jv c q k) (kidx_le c k q Hw Hq) (seg_nth c k Hw Hk) (jv_spec c q k Hw Hq Hk)).
Qed.

Lemma hd_init res : length res = (n + 1)%nat ->
  exists res1, for_loop n 0 (hd_init_body c acc_root q qd fext) (0%nat, f_id, res) = Ret (n, tip_frame c q n, res1) /\
    length res1 = (n + 1)%nat /\ forall m, (m < n)%nat -> si_a (rget res1 (S m)) = SA c q qd fext m.
Proof.
  intros Hl. pose proof Hok as [Hw _].
  destruct (for_loop_inv (fun k st => let '(j, Ft, rs) := st in j = k /\ Ft = tip_frame c q k /\ length rs = (n + 1)%nat /\
      forall m, (m < k)%nat -> si_a (rget rs (S m)) = SA c q qd fext m) (hd_init_body c acc_root q qd fext) n 0 (0%nat, f_id, res))
    as ([[j Ft] res1] & E & Ej & EF & L & Ha).
  - intros k [[j Ft] rs] Hk (-> & -> & L & Ha). unfold hd_init_body.
    assert (Hkn : (k < n)%nat) by lia.
    rewrite (seg_get c k Hw Hkn). cbn [obind]. rewrite rget_get by lia. cbn [obind].
    pose proof (jv_get c q k Hw Hq Hkn (Hmv k Hkn)) as G1. pose proof (jv_get c qd k Hw Hqd Hkn (Hmv k Hkn)) as G2.
    rewrite kidx_moving in G1, G2 by (auto; fold n; lia). rewrite G1. cbn [obind]. rewrite G2. cbn [obind].
    change (segment_pose (seg c k) (jv c q k)) with (LX c q k). cbv zeta. rewrite LA_scale. fold (LA c q k). rewrite <- tip_S by exact Hkn.
    assert (EV : (if Nat.eqb k 0 then Ret (t_scale (LA c q k) (jv c qd k))
        else let! p := aget rs k in Ret (t_add (f_invapp_t (LX c q k) (sa_v (si_a p))) (t_scale (LA c q k) (jv c qd k)))) = Ret (lvel c q qd (S k))).
    { destruct (Nat.eqb_spec k 0) as [K|K].
      - subst k. unfold lvel. cbn [bt]. rewrite f_invapp_t_zero, t_add_0_l. reflexivity.
      - rewrite rget_get by lia. cbn [obind]. pose proof (Ha (k - 1)%nat ltac:(lia)) as Ha'. replace (S (k - 1)) with k in Ha' by lia. rewrite Ha'.
        unfold SA. cbv zeta. cbn [sa_v]. replace (S (k - 1)) with k by lia. reflexivity. }
    rewrite EV. cbn [obind]. rewrite (aget_nth fext k w_zero) by lia. cbn [obind].
    rewrite aset_ret by lia. cbn [obind]. eexists. split; [reflexivity|].
    split; [change (moving (seg c k)) with (mv c k); rewrite (Hmv k Hkn); reflexivity|]. split; [reflexivity|].
    split; [rewrite upd_length; exact L|]. intros m Hm. destruct (Nat.eq_dec m k) as [->|Ne].
    + rewrite Nat.add_1_r, rget_same by lia. cbn [si_a]. reflexivity.
    + rewrite rget_other by lia. apply Ha. lia.
  - split; [reflexivity|]. split; [reflexivity|]. split; [exact Hl|]. intros m Hm. lia.
  - exists res1. cbn [Nat.add] in *. subst j Ft. auto.
Qed.

(** * The second sweep *)
Variables (nc : nat) (alfa : list Twist) (ff : list R).
Hypothesis Hff : length ff = ch_nj c.
(** entries lo, ..., n are done *)
Definition swept (a : nat -> siA) (Ft : Frame) (lo : nat) (res : list seginfo) : Prop :=
  (forall i, (i <= n)%nat -> si_a (rget res i) = a i) /\
  ((lo <= n)%nat -> si_t (rget res n) = hd_leaf nc Ft alfa (a n)) /\
  (forall k, (lo <= k)%nat -> (k < n)%nat -> hd_inner nc (a k) (rget res (S k)) = Ret (si_t (rget res k))) /\
  (forall m, (lo <= S m)%nat -> (m < n)%nat -> si_r (rget res (S m)) = hd_root (seg c m) (a (S m)) (si_t (rget res (S m))) (nth m ff 0)).

Definition down_inv a Ft (t : nat) (st : Z * list seginfo) : Prop :=
  let '(j, res) := st in j = (Z.of_nat (n - t) - 1)%Z /\ length res = (n + 1)%nat /\ swept a Ft (n + 1 - t) res.

Lemma down_step a Ft t st : (t < n + 1)%nat -> down_inv a Ft t st ->
  (t <> 0%nat -> sr_D (si_r (rget (snd st) (n + 1 - t))) <> 0) ->
  exists st', hd_down_body c n nc Ft alfa ff t st = Ret st' /\ down_inv a Ft (S t) st'.
Proof.
  intros Ht. destruct st as [j res]. cbn [snd]. intros (Ej & L & Sa & Sl & Si & Sr) HD. pose proof Hok as [Hw _].
  unfold hd_down_body. set (i := (n - t)%nat). assert (Hi : (i <= n)%nat) by (unfold i; lia).
  rewrite rget_get by lia. cbn [obind]. rewrite Sa by exact Hi.
  assert (ET : exists tl, (if Nat.eqb i n then Ret (hd_leaf nc Ft alfa (a i)) else let! child := aget res (i + 1) in hd_inner nc (a i) child) = Ret tl /\
      (i = n -> tl = hd_leaf nc Ft alfa (a n)) /\ ((i < n)%nat -> hd_inner nc (a i) (rget res (S i)) = Ret tl)).
  { destruct (Nat.eqb_spec i n) as [K|K].
    - eexists. split; [reflexivity|]. split; [intros _; rewrite K; reflexivity|intros; lia].
    - rewrite rget_get by lia. cbn [obind]. rewrite Nat.add_1_r. unfold hd_inner at 1. cbv zeta.
      destruct (Req_EM_T (sr_D (si_r (rget res (S i)))) 0) as [Z|Z].
      + exfalso. apply HD; [unfold i in K; lia|]. replace (n + 1 - t)%nat with (S i) by (unfold i; lia). exact Z.
      + eexists. split; [reflexivity|]. split; [intros; lia|]. intros _. unfold hd_inner. cbv zeta.
        destruct (Req_EM_T (sr_D (si_r (rget res (S i)))) 0); [contradiction|reflexivity]. }
  destruct ET as (tl & -> & TL & TI). cbn [obind].
  assert (Fin : forall r, ((0 < i)%nat -> r = hd_root (seg c (i - 1)) (a i) tl (nth (i - 1) ff 0)) -> forall x,
     swept a Ft (n + 1 - S t) (upd res i (mkSI (a i) tl r x))).
  { intros r Hr x. unfold swept. split; [|split; [|split]].
    - intros k Hk. destruct (Nat.eq_dec i k) as [<-|Ne]; [rewrite rget_same by lia; reflexivity|rewrite rget_other by exact Ne; apply Sa, Hk].
    - intros _. destruct (Nat.eq_dec i n) as [E|Ne]; [rewrite <- E at 1; rewrite rget_same by lia; cbn [si_t]; apply TL, E|].
      rewrite rget_other by exact Ne. apply Sl. unfold i in Ne. lia.
    - intros k Hk Hkn. destruct (Nat.eq_dec i k) as [<-|Ne].
      + rewrite rget_other, rget_same by lia. cbn [si_t]. apply TI, Hkn.
      + rewrite !rget_other by (unfold i in *; lia). apply Si; unfold i in *; lia.
    - intros m Hm Hmn. destruct (Nat.eq_dec i (S m)) as [E|Ne].
      + rewrite <- E. rewrite rget_same by lia. cbn [si_r si_t]. rewrite Hr by lia. replace (i - 1)%nat with m by lia. reflexivity.
      + rewrite !rget_other by exact Ne. apply Sr; unfold i in *; lia. }
  destruct (Nat.eqb_spec i 0) as [K|K].
  - rewrite aset_ret by lia. cbn [obind]. eexists. split; [reflexivity|]. unfold down_inv.
    split; [unfold i in K; lia|]. split; [rewrite upd_length; exact L|]. apply Fin. lia.
  - rewrite (seg_get c (i - 1) Hw) by (fold n; lia). cbn [obind].
    assert (EZ : zaget ff j = Ret (nth (i - 1) ff 0)).
    { rewrite Ej. fold i. unfold zaget. destruct (Z.ltb_spec (Z.of_nat i - 1) 0); [lia|]. replace (Z.to_nat (Z.of_nat i - 1)) with (i - 1)%nat by lia.
      apply aget_nth. rewrite Hff, (nj_moving c Hw Hmv). fold n. lia. }
    rewrite EZ. cbn [obind]. rewrite aset_ret by lia. cbn [obind]. eexists. split; [reflexivity|].
    change (moving (seg c (i - 1))) with (mv c (i - 1)). rewrite Hmv by (fold n; lia). unfold down_inv.
    split; [unfold i in *; lia|]. split; [rewrite upd_length; exact L|]. apply Fin. auto.
Qed.
Lemma down_stop a Ft t st : (t < n + 1)%nat -> down_inv a Ft t st -> t <> 0%nat ->
  sr_D (si_r (rget (snd st) (n + 1 - t))) = 0 -> hd_down_body c n nc Ft alfa ff t st = Undef.
Proof.
  intros Ht. destruct st as [j res]. cbn [snd]. intros (Ej & L & Sa & _) Hn HD. unfold hd_down_body.
  rewrite rget_get by lia. cbn [obind]. destruct (Nat.eqb_spec (n - t) n) as [K|K]; [lia|]. rewrite rget_get by lia. cbn [obind].
  unfold hd_inner. cbv zeta. replace (n - t + 1)%nat with (n + 1 - t)%nat by lia. rewrite HD. destruct (Req_EM_T 0 0); [reflexivity|contradiction].
Qed.
Lemma down_start a Ft res : length res = (n + 1)%nat -> (forall i, (i <= n)%nat -> si_a (rget res i) = a i) ->
  down_inv a Ft 0 ((Z.of_nat (ch_nj c) - 1)%Z, res).
Proof.
  intros L Ha. pose proof Hok as [Hw _]. unfold down_inv. rewrite (nj_moving c Hw Hmv). fold n. rewrite !Nat.sub_0_r. split; [reflexivity|]. split; [exact L|].
  split; [exact Ha|]. split; [lia|]. split; intros; lia.
Qed.
Lemma hd_down_part a Ft res j res2 : length res = (n + 1)%nat -> (forall i, (i <= n)%nat -> si_a (rget res i) = a i) ->
  for_loop (n + 1) 0 (hd_down_body c n nc Ft alfa ff) ((Z.of_nat (ch_nj c) - 1)%Z, res) = Ret (j, res2) ->
  length res2 = (n + 1)%nat /\ swept a Ft 0 res2.
Proof.
  intros L Ha E. pose proof (for_loop_pinv (down_inv a Ft) (hd_down_body c n nc Ft alfa ff) (n + 1) 0 _ _ ltac:(
    intros k st st' Hk HI Es;
    destruct (Nat.eq_dec k 0) as [K|K];
    [ destruct (down_step a Ft k st ltac:(lia) HI ltac:(intros; contradiction)) as (st'' & E1 & HI'); rewrite Es in E1; injection E1 as ->; exact HI'
    | destruct (Req_EM_T (sr_D (si_r (rget (snd st) (n + 1 - k)))) 0) as [Z|Z];
      [ rewrite (down_stop a Ft k st ltac:(lia) HI K Z) in Es; discriminate Es
      | destruct (down_step a Ft k st ltac:(lia) HI ltac:(intros; exact Z)) as (st'' & E1 & HI'); rewrite Es in E1; injection E1 as ->; exact HI' ] ]) (down_start a Ft res L Ha) E) as HI.
  cbn [Nat.add] in HI. destruct HI as (_ & L2 & Sw). replace (n + 1 - (n + 1))%nat with 0%nat in Sw by lia. auto.
Qed.
Lemma hd_down_total a Ft res : length res = (n + 1)%nat -> (forall i, (i <= n)%nat -> si_a (rget res i) = a i) ->
  (forall lo rs, (lo < n)%nat -> length rs = (n + 1)%nat -> swept a Ft (S lo) rs -> sr_D (si_r (rget rs (S lo))) <> 0) ->
  exists j res2, for_loop (n + 1) 0 (hd_down_body c n nc Ft alfa ff) ((Z.of_nat (ch_nj c) - 1)%Z, res) = Ret (j, res2).
Proof.
  intros L Ha HD. destruct (for_loop_inv (down_inv a Ft) (hd_down_body c n nc Ft alfa ff) (n + 1) 0 ((Z.of_nat (ch_nj c) - 1)%Z, res)) as ([j res2] & E & _).
  - intros k st Hk HI. apply down_step; [lia|exact HI|]. intros K. destruct st as [j rs]. destruct HI as (_ & L' & Sw). cbn [snd].
    replace (n + 1 - k)%nat with (S (n - k)) in * by lia. apply HD; [lia|exact L'|exact Sw].
  - apply down_start; assumption.
  - exists j, res2. exact E.
Qed.
Lemma swept_D a Ft res k : swept a Ft 0 res -> (k < n)%nat -> sr_D (si_r (rget res (S k))) <> 0.
Proof.
  intros (_ & _ & Si & _) Hk Z. specialize (Si k ltac:(lia) Hk). unfold hd_inner in Si. cbv zeta in Si. rewrite Z in Si.
  destruct (Req_EM_T 0 0); [discriminate Si|contradiction].
Qed.

(** * The last sweep *)
Definition fin_acc (res : list seginfo) (i : nat) : Twist := match i with O => acc_root | S _ => sx_acc (si_x (rget res i)) end.
Definition fin_step (nu : list R) (res : list seginfo) (qdd ct tot : list R) (m : nat) : Prop :=
  let s := rget res (S m) in let a := si_a s in let r := si_r s in let a_p := fin_acc res m in
  let pf := - tw_dot (sa_Z a) (ab_app (sr_P r) a_p) in let cf := - tw_dot (sa_Z a) (wcols (sr_E r) nu) in
  nth m qdd 0 = sr_u r / sr_D r + pf / sr_D r + cf / sr_D r /\ nth m ct 0 = cf /\ nth m tot 0 = sr_u r + pf + cf /\
  fin_acc res (S m) = f_invapp_t (sa_F a) (t_add (t_add a_p (t_scale (sa_Z a) (nth m qdd 0))) (sa_C a)).

Lemma hd_final nu res2 qdd ct tot : length res2 = (n + 1)%nat -> length qdd = n -> length ct = n -> length tot = n ->
  (forall k, (k < n)%nat -> sr_D (si_r (rget res2 (S k))) <> 0) ->
  exists j res3 qdd' ct' tot', for_loop n 1 (hd_final_body c acc_root nu) (0%nat, res2, qdd, ct, tot) = Ret (j, res3, qdd', ct', tot') /\
    length res3 = (n + 1)%nat /\ length qdd' = n /\ length ct' = n /\ length tot' = n /\
    (forall i, (i <= n)%nat -> si_a (rget res3 i) = si_a (rget res2 i) /\ si_t (rget res3 i) = si_t (rget res2 i) /\ si_r (rget res3 i) = si_r (rget res2 i)) /\
    forall m, (m < n)%nat -> fin_step nu res3 qdd' ct' tot' m.
Proof.
  intros L2 Lq Lc Lt HD. pose proof Hok as [Hw _].
  destruct (for_loop_inv (fun k st => let '(j, rs, qa, ca, ta) := st in S j = k /\ length rs = (n + 1)%nat /\ length qa = n /\ length ca = n /\ length ta = n /\
      (forall i, (i <= n)%nat -> si_a (rget rs i) = si_a (rget res2 i) /\ si_t (rget rs i) = si_t (rget res2 i) /\ si_r (rget rs i) = si_r (rget res2 i)) /\
      forall m, (m < j)%nat -> fin_step nu rs qa ca ta m) (hd_final_body c acc_root nu) n 1 (0%nat, res2, qdd, ct, tot))
    as ([[[[j res3] qdd'] ct'] tot'] & E & Ej & L3 & Q3 & C3 & T3 & Same & Fs).
  - intros k [[[[j rs] qa] ca] ta] Hk (Ej & L & Q & Cl & T & Same & Fs).
    assert (Hj : (j < n)%nat) by lia. rewrite <- Ej. unfold hd_final_body. rewrite rget_get by lia. cbn [obind].
    set (s := rget rs (S j)). destruct (Same (S j) ltac:(lia)) as (SA1 & ST1 & SR1). fold s in SA1, ST1, SR1.
    assert (EP : (if Nat.eqb (S j) 1 then Ret acc_root else let! p := aget rs (S j - 1) in Ret (sx_acc (si_x p))) = Ret (fin_acc rs j)).
    { destruct j as [|j]; [reflexivity|]. cbn [Nat.eqb]. replace (S (S j) - 1)%nat with (S j) by lia. rewrite rget_get by lia. reflexivity. }
    rewrite EP. cbn [obind]. cbv zeta.
    pose proof (HD j Hj) as Dj. rewrite <- SR1 in Dj.
    assert (RD : forall y, rdiv y (sr_D (si_r s)) = Ret (y / sr_D (si_r s))) by (intros y; unfold rdiv; destruct (Req_EM_T (sr_D (si_r s)) 0); [contradiction|reflexivity]).
    rewrite RD. cbn [obind]. rewrite aset_ret by lia. cbn [obind]. rewrite agetR by (rewrite upd_length; lia). cbn [obind]. rewrite nth_upd_same by lia.
    rewrite aset_ret by lia. cbn [obind]. rewrite !RD. cbn [obind]. rewrite aset_ret by lia. cbn [obind].
    rewrite agetR by (rewrite upd_length; lia). cbn [obind]. rewrite nth_upd_same by lia. rewrite aset_ret by lia. cbn [obind].
    rewrite (seg_get c (S j - 1) Hw) by (fold n; lia). cbn [obind]. eexists. split; [reflexivity|].
    change (moving (seg c (S j - 1))) with (mv c (S j - 1)). rewrite Hmv by (fold n; lia).
    split; [lia|]. split; [rewrite upd_length; exact L|]. split; [rewrite upd_length; exact Q|]. split; [rewrite upd_length; exact Cl|].
    split; [rewrite upd_length; exact T|]. split.
    { intros i Hi. destruct (Nat.eq_dec (S j) i) as [<-|Ne]; [rewrite rget_same by lia; cbn [si_a si_t si_r]; auto|rewrite rget_other by exact Ne; apply Same, Hi]. }
    intros m Hm. destruct (Nat.eq_dec m j) as [->|Ne].
    + unfold fin_step. cbv zeta. rewrite rget_same by lia. cbn [si_a si_r].
      rewrite !nth_upd_same by lia.
      assert (FA : forall s', fin_acc (upd rs (S j) s') j = fin_acc rs j).
      { intros s'. destruct j as [|j]; [reflexivity|]. unfold fin_acc. rewrite rget_other by lia. reflexivity. }
      rewrite FA. split; [ring|]. split; [reflexivity|]. split; [reflexivity|].
      unfold fin_acc at 1. rewrite rget_same by lia. cbn [si_x sx_acc]. reflexivity.
    + specialize (Fs m ltac:(lia)). unfold fin_step in *. cbv zeta in *. rewrite rget_other by lia. rewrite !nth_upd_other by lia.
      assert (FA : forall i s', (i <= j)%nat -> fin_acc (upd rs (S j) s') i = fin_acc rs i).
      { intros i s' Hi. destruct i as [|i]; [reflexivity|]. unfold fin_acc. rewrite rget_other by lia. reflexivity. }
      rewrite !FA by lia. exact Fs.
  - split; [reflexivity|]. split; [exact L2|]. split; [exact Lq|]. split; [exact Lc|]. split; [exact Lt|]. split; [auto|]. intros; lia.
  - exists j, res3, qdd', ct', tot'. assert (j = n) by lia. subst j. auto 10.
Qed.
End Sweeps.
