(** Every branch of the conversion is accurate. *)
From Coq Require Import Reals Bool Lia Lra Psatz.
From Verif Require Import FramesModel FramesSpec FramesProofs RotationProofs FlModel FlSpec FlProofs FlJoint FlWitness FlRotModel FlRotSpec FlRotProofs FlFrameProofs FlRotFinal SvdRound
  FlQuatModel FlQuatSpec FlQuatProofs RotationProofs2.
Local Open Scope R_scope.

Lemma quat_sign x y z w : r_Quaternion (- x) (- y) (- z) (- w) = r_Quaternion x y z w.
Proof. unfold r_Quaternion. f_equal; ring. Qed.
Lemma stands_opp q M : stands_for q M -> stands_for (q_opp q) M.
Proof. destruct q as [[[x y] z] w]. cbn. intros [U E]. split; [nra|rewrite quat_sign; exact E]. Qed.
Lemma stands_exists M : is_rotation M -> exists q, stands_for q M.
Proof. intros H. pose proof (GetQuaternion_correct M H) as G. exists (r_GetQuaternion M). exact G. Qed.

Lemma pick (f : R * R * R * R -> R) M : is_rotation M -> (forall q, f (q_opp q) = - f q) -> exists q, stands_for q M /\ 0 <= f q.
Proof.
  intros H F. destruct (stands_exists M H) as [q Q]. destruct (Rle_dec 0 (f q)) as [L|L]; [exists q; auto|].
  exists (q_opp q). split; [apply stands_opp; exact Q|rewrite F; lra].
Qed.

Section M.
Variables (eps eta : R) (rnd : R -> R).
Hypothesis (He : 0 <= eps) (Ht : 0 <= eta) (Hs : eps + eta <= / 2000) (Hrnd : rounds eps rnd).
Let d := eps + eta.
Local Lemma Hd : eps + eta <= d. Proof. unfold d; lra. Qed.
Local Lemma Hs' : d <= / 2000. Proof. unfold d; lra. Qed.

Lemma threshold : Rabs (rnd (1 / 10 ^ 12)) <= / 1000.
Proof.
  pose proof (Hrnd (1 / 10 ^ 12)) as R. rewrite (Rabs_right (1 / 10 ^ 12)) in R by lra.
  apply Rabs_le. unfold Rabs in R. destruct (Rcase_abs _); nra.
Qed.
Lemma low a : 0 <= a -> 9/10 <= 4 * a ^ 2 -> 47/100 <= a. Proof. nra. Qed.
Lemma abs1 x s : x ^ 2 <= 1 -> s = x -> Rabs s <= 1. Proof. intros H ->. apply Rabs_le. nra. Qed.


Lemma plus_near m' m k' k v : Rabs (m' - m) <= eta -> Rabs (k' - k) <= eta -> m + k = v -> Rabs v <= 2 -> Rabs (rnd (m' + k') - v) <= 6 * d.
Proof. intros H1 H2 <- B. apply (num eps eta d rnd He Ht Hd Hs' Hrnd); assumption. Qed.
Lemma minus_near m' m k' k v : Rabs (m' - m) <= eta -> Rabs (k' - k) <= eta -> m - k = v -> Rabs v <= 2 -> Rabs (rnd (m' - k') - v) <= 6 * d.
Proof. intros H1 H2 E B. unfold Rminus at 2. apply (plus_near m' m (- k') (- k)); [exact H1|apply opp; exact H2|lra|exact B]. Qed.
Lemma rad_near m' m k' k l' l v : Rabs (m' - m) <= eta -> Rabs (k' - k) <= eta -> Rabs (l' - l) <= eta -> Rabs m <= 1 -> Rabs k <= 1 -> Rabs l <= 1 -> 1 + m - k - l = v ->
  Rabs (rnd (rnd (rnd (1 + m') - k') - l') - v) <= 16 * d.
Proof. intros H1 H2 H3 B1 B2 B3 <-. apply (radicand eps eta d rnd He Ht Hd Hs' Hrnd); assumption. Qed.
Lemma two a b c e : a ^ 2 + b ^ 2 + c ^ 2 + e ^ 2 = 1 -> Rabs (4 * a * b) <= 2.
Proof. intros U. pose proof (pow2_ge_0 (a - b)). pose proof (pow2_ge_0 (a + b)). pose proof (pow2_ge_0 c). pose proof (pow2_ge_0 e). apply Rabs_le. split; lra. Qed.
Lemma one a b c e : a ^ 2 + b ^ 2 + c ^ 2 + e ^ 2 = 1 -> Rabs a <= 1.
Proof. intros U. pose proof (pow2_ge_0 b). pose proof (pow2_ge_0 c). pose proof (pow2_ge_0 e). apply Rabs_le. nra. Qed.
Lemma diag a b c e : a ^ 2 + b ^ 2 + c ^ 2 + e ^ 2 = 1 -> Rabs (a * a + b * b - c * c - e * e) <= 1.
Proof. intros U. pose proof (pow2_ge_0 a). pose proof (pow2_ge_0 b). pose proof (pow2_ge_0 c). pose proof (pow2_ge_0 e). apply Rabs_le. split; lra. Qed.

(** the three branches that start with a component of the axis: a is that component, b, c, e are the others *)
Lemma branch a b c e A nb nc ne : a ^ 2 + b ^ 2 + c ^ 2 + e ^ 2 = 1 -> 0 <= a -> 9/10 <= 4 * a ^ 2 -> Rabs (A - 4 * a ^ 2) <= 16 * d ->
  Rabs (nb - 4 * a * b) <= 6 * d -> Rabs (nc - 4 * a * c) <= 6 * d -> Rabs (ne - 4 * a * e) <= 6 * d ->
  exists u qb qc qe, fl_sqrt rnd A = Some u /\ fl_div rnd nb (rnd (2 * u)) = Some qb /\ fl_div rnd nc (rnd (2 * u)) = Some qc /\ fl_div rnd ne (rnd (2 * u)) = Some qe /\
    Rabs (rnd ((1/4) * rnd (2 * u)) - a) <= 60 * d /\ Rabs (qb - b) <= 60 * d /\ Rabs (qc - c) <= 60 * d /\ Rabs (qe - e) <= 60 * d.
Proof.
  intros U Ha A9 HA Hb Hc Hee. pose proof (low a Ha A9) as A47. assert (A1 : a <= 1) by (pose proof (one a b c e U) as X; apply ab in X; lra).
  assert (B1 : Rabs b <= 1) by (apply (one b a c e); lra). assert (C1 : Rabs c <= 1) by (apply (one c a b e); lra). assert (E1 : Rabs e <= 1) by (apply (one e a b c); lra).
  destruct (root eps eta d rnd He Ht Hd Hs' Hrnd a A (conj Ha A1) A9 HA) as (u & Eu & Hu).
  pose proof (double_root eps eta d rnd He Ht Hd Hs' Hrnd a u (conj Ha A1) Hu) as Hss.
  destruct (ratio eps eta d rnd He Ht Hd Hs' Hrnd a b nb _ (conj A47 A1) B1 Hb Hss) as (qb & Eb & Kb).
  destruct (ratio eps eta d rnd He Ht Hd Hs' Hrnd a c nc _ (conj A47 A1) C1 Hc Hss) as (qc & Ec & Kc).
  destruct (ratio eps eta d rnd He Ht Hd Hs' Hrnd a e ne _ (conj A47 A1) E1 Hee Hss) as (qe & Ee & Ke).
  exists u, qb, qc, qe. repeat (split; [assumption|]). split; [apply (quarter eps eta d rnd He Ht Hd Hs' Hrnd); [split; assumption|exact Hss]|]. auto.
Qed.
Lemma branch_w a b c e A nb nc ne : a ^ 2 + b ^ 2 + c ^ 2 + e ^ 2 = 1 -> 0 <= a -> 9/10 <= 4 * a ^ 2 -> Rabs (A - 4 * a ^ 2) <= 16 * d ->
  Rabs (nb - 4 * a * b) <= 6 * d -> Rabs (nc - 4 * a * c) <= 6 * d -> Rabs (ne - 4 * a * e) <= 6 * d ->
  exists u s q, fl_sqrt rnd A = Some u /\ fl_div rnd (1/2) u = Some s /\ fl_div rnd (1/4) s = Some q /\
    Rabs (q - a) <= 60 * d /\ Rabs (rnd (nb * s) - b) <= 60 * d /\ Rabs (rnd (nc * s) - c) <= 60 * d /\ Rabs (rnd (ne * s) - e) <= 60 * d.
Proof.
  intros U Ha A9 HA Hb Hc Hee. pose proof (low a Ha A9) as A47. assert (A1 : a <= 1) by (pose proof (one a b c e U) as X; apply ab in X; lra).
  assert (B1 : Rabs b <= 1) by (apply (one b a c e); lra). assert (C1 : Rabs c <= 1) by (apply (one c a b e); lra). assert (E1 : Rabs e <= 1) by (apply (one e a b c); lra).
  destruct (root eps eta d rnd He Ht Hd Hs' Hrnd a A (conj Ha A1) A9 HA) as (u & Eu & Hu).
  destruct (inverse_root eps eta d rnd He Ht Hd Hs' Hrnd a u (conj A47 A1) Hu) as (s & Es & Ks).
  destruct (back_root eps eta d rnd He Ht Hd Hs' Hrnd a s (conj A47 A1) Ks) as (q & Eq & Kq).
  exists u, s, q. repeat (split; [assumption|]).
  split; [|split]; (apply (scaled eps eta d rnd He Ht Hd Hs' Hrnd a); [split; assumption|assumption| |assumption|exact Ks]).
  - apply (two a b c e); lra.
  - apply (two a c b e); lra.
  - apply (two a e b c); lra.
Qed.

Ltac opn HN := destruct HN as ((N0 & N1 & N2) & (N3 & N4 & N5) & (N6 & N7 & N8)); unfold r_Quaternion in N0, N1, N2, N3, N4, N5, N6, N7, N8; cbn [r0 r1 r2 r3 r4 r5 r6 r7 r8] in N0, N1, N2, N3, N4, N5, N6, N7, N8.
Ltac absd H := pose proof (ab _ _ H).

Ltac diags x y z w U N0 N4 N8 :=
    assert (T0 : Rabs (w*w+x*x-y*y-z*z) <= 1) by (apply diag; lra);
    assert (T4 : Rabs (w*w-x*x+y*y-z*z) <= 1) by (replace (w*w-x*x+y*y-z*z) with (w*w+y*y-x*x-z*z) by ring; apply diag; lra);
    assert (T8 : Rabs (w*w-x*x-y*y+z*z) <= 1) by (replace (w*w-x*x-y*y+z*z) with (w*w+z*z-x*x-y*y) by ring; apply diag; lra);
    destruct (traced eps eta d rnd He Ht Hd Hs' Hrnd _ _ _ _ _ _ N0 N4 N8 T0 T4 T8) as [S1 S2];
    absd S1; absd N0; absd N4; absd N8.
Lemma fl_quat_main M' M : is_rotation M -> r_near eta M' M ->
  exists q' q, fl_GetQuaternion rnd M' = Some q' /\ stands_for q M /\ q_near (60 * d) q' q.
Proof.
  intros HM HN. pose proof (ab _ _ threshold) as TH. pose proof Hs' as D1. assert (d0 : 0 <= d) by (unfold d; lra). assert (ed : eta <= d) by (unfold d; lra).
  unfold fl_GetQuaternion. destruct (Rlt_dec _ _) as [LT|LT].
  - destruct (pick (fun q => snd q) M HM) as ([[[x y] z] w] & [U E] & P); [intros [[[? ?] ?] ?]; reflexivity|]. cbn [snd] in P. subst M. opn HN.
    diags x y z w U N0 N4 N8. set (t := rnd (rnd (r0 M' + r4 M') + r8 M')) in *.
    destruct (branch_w w x y z (rnd (t + 1)) (rnd (r7 M' - r5 M')) (rnd (r2 M' - r6 M')) (rnd (r3 M' - r1 M'))) as (u & s & q & E1 & E2 & E3 & K1 & K2 & K3 & K4).
    + lra. + exact P. + lra.
    + replace (4 * w ^ 2) with (w*w+x*x-y*y-z*z + (w*w-x*x+y*y-z*z) + (w*w-x*x-y*y+z*z) + 1) by lra. exact S2.
    + apply (minus_near _ _ _ _ _ N7 N5); [ring|apply (two w x y z); lra].
    + apply (minus_near _ _ _ _ _ N2 N6); [ring|apply (two w y x z); lra].
    + apply (minus_near _ _ _ _ _ N3 N1); [ring|apply (two w z x y); lra].
    + rewrite E1. cbn [bind]. rewrite E2. cbn [bind]. rewrite E3. cbn [bind]. eexists; exists (x, y, z, w). split; [reflexivity|]. split; [split; [exact U|reflexivity]|]. repeat split; assumption.
  - apply Rnot_lt_le in LT.
    set (o := (if Rlt_dec (r4 M') (r0 M') then true else false) && (if Rlt_dec (r8 M') (r0 M') then true else false)).
    assert (Ho : if o then r4 M' < r0 M' /\ r8 M' < r0 M' else r0 M' <= r4 M' \/ r0 M' <= r8 M').
    { subst o. destruct (Rlt_dec (r4 M') (r0 M')), (Rlt_dec (r8 M') (r0 M')); cbn [andb]; lra. }
    clearbody o. destruct o; [|destruct (Rlt_dec (r8 M') (r4 M')) as [L|L]].
    + destruct (pick (fun q => fst (fst (fst q))) M HM) as ([[[x y] z] w] & [U E] & P); [intros [[[? ?] ?] ?]; reflexivity|]. cbn [fst snd] in P. subst M. opn HN. diags x y z w U N0 N4 N8.
      destruct (branch x y z w (rnd (rnd (rnd (1 + r0 M') - r4 M') - r8 M')) (rnd (r1 M' + r3 M')) (rnd (r2 M' + r6 M')) (rnd (r7 M' - r5 M'))) as (u & qy & qz & qw & E1 & E2 & E3 & E4 & K1 & K2 & K3 & K4).
      * lra. * exact P. * lra.
      * apply (rad_near _ _ _ _ _ _ _ N0 N4 N8 T0 T4 T8). lra.
      * apply (plus_near _ _ _ _ _ N1 N3); [ring|apply (two x y z w); lra].
      * apply (plus_near _ _ _ _ _ N2 N6); [ring|apply (two x z y w); lra].
      * apply (minus_near _ _ _ _ _ N7 N5); [ring|apply (two x w y z); lra].
      * rewrite E1. cbn [bind]. rewrite E4. cbn [bind]. rewrite E2. cbn [bind]. rewrite E3. cbn [bind]. eexists; exists (x, y, z, w). split; [reflexivity|]. split; [split; [exact U|reflexivity]|]. repeat split; assumption.
    + destruct (pick (fun q => snd (fst (fst q))) M HM) as ([[[x y] z] w] & [U E] & P); [intros [[[? ?] ?] ?]; reflexivity|]. cbn [fst snd] in P. subst M. opn HN. diags x y z w U N0 N4 N8.
      destruct (branch y x z w (rnd (rnd (rnd (1 + r4 M') - r0 M') - r8 M')) (rnd (r1 M' + r3 M')) (rnd (r5 M' + r7 M')) (rnd (r2 M' - r6 M'))) as (u & qx & qz & qw & E1 & E2 & E3 & E4 & K1 & K2 & K3 & K4).
      * lra. * exact P. * lra.
      * apply (rad_near _ _ _ _ _ _ _ N4 N0 N8 T4 T0 T8). lra.
      * apply (plus_near _ _ _ _ _ N1 N3); [ring|apply (two y x z w); lra].
      * apply (plus_near _ _ _ _ _ N5 N7); [ring|apply (two y z x w); lra].
      * apply (minus_near _ _ _ _ _ N2 N6); [ring|apply (two y w x z); lra].
      * rewrite E1. cbn [bind]. rewrite E4. cbn [bind]. rewrite E2. cbn [bind]. rewrite E3. cbn [bind]. eexists; exists (x, y, z, w). split; [reflexivity|]. split; [split; [exact U|reflexivity]|]. repeat split; assumption.
    + destruct (pick (fun q => snd (fst q)) M HM) as ([[[x y] z] w] & [U E] & P); [intros [[[? ?] ?] ?]; reflexivity|]. cbn [fst snd] in P. subst M. opn HN. diags x y z w U N0 N4 N8.
      destruct (branch z x y w (rnd (rnd (rnd (1 + r8 M') - r0 M') - r4 M')) (rnd (r2 M' + r6 M')) (rnd (r5 M' + r7 M')) (rnd (r3 M' - r1 M'))) as (u & qx & qy & qw & E1 & E2 & E3 & E4 & K1 & K2 & K3 & K4).
      * lra. * exact P. * lra.
      * apply (rad_near _ _ _ _ _ _ _ N8 N0 N4 T8 T0 T4). lra.
      * apply (plus_near _ _ _ _ _ N2 N6); [ring|apply (two z x y w); lra].
      * apply (plus_near _ _ _ _ _ N5 N7); [ring|apply (two z y x w); lra].
      * apply (minus_near _ _ _ _ _ N3 N1); [ring|apply (two z w x y); lra].
      * rewrite E1. cbn [bind]. rewrite E4. cbn [bind]. rewrite E2. cbn [bind]. rewrite E3. cbn [bind]. eexists; exists (x, y, z, w). split; [reflexivity|]. split; [split; [exact U|reflexivity]|]. repeat split; assumption.
Qed.
End M.
