(** Further proofs for C81: contents, copies and attributes. *)
From Coq Require Import Reals List Arith Bool Lia.
From Verif Require Import LifeModel LifeSpec LifeProofs.
Import ListNotations.
Local Arguments cell : simpl never.
Local Arguments fits : simpl never.
Local Arguments fresh : simpl never.

Lemma fresh_new ka x o s : assoc x (names (fresh ka x o s)) = Some (length (heap s)) /\ cell (heap (fresh ka x o s)) (length (heap s)) = Some o.
Proof.
  unfold fresh. split; [apply assoc_bind_same|]. unfold bind. rewrite (collect_kept ka _ x).
  - cbn [heap]. rewrite cell_app, Nat.eqb_refl. reflexivity.
  - cbn [names assoc]. now rewrite Nat.eqb_refl.
Qed.
Lemma lookup1 y n l : lookup_all [y] n = Some l -> exists b, l = [b] /\ assoc y n = Some b.
Proof. cbn. destruct (assoc y n); [|discriminate]. intro E; injection E as <-. eauto. Qed.

(** ** Trees taken by value *)
Lemma own_copy cl p s x y s1 v q s2 :
  parameters cl = [(ATree, ByValue)] ->
  run false p start = Some s -> step false s (NewSol x cl [y]) = Done s1 v -> untouched x q -> run false q s1 = Some s2 ->
  exists b l, assoc y (names s) = Some b /\ cell (heap s) b = Some (Kin true l) /\ step false s2 (Call x) = Done s2 (Structures [l]).
Proof.
  intros P Hp E U Hq. assert (I := run_inv false p _ _ (start_inv false) Hp). assert (I1 := step_inv false s (NewSol x cl [y]) I). rewrite E in I1. cbn [outcome_inv] in I1.
  cbn [step] in E. destruct (lookup_all [y] (names s)) as [l0|] eqn:L; [|discriminate].
  destruct (lookup1 _ _ _ L) as [b [-> Hb]]. rewrite P in E. cbn in E. destruct (fits (heap s) (ATree, ByValue) b) eqn:F; [|discriminate]. cbn in E.
  injection E as <- <-. unfold fits in F; cbn in F. destruct (cell (heap s) b) as [[| |[|] l|]|] eqn:C; try discriminate.
  exists b, l. split; auto. split; auto.
  destruct (fresh_new false x (Sol cl [] [l]) s) as [A B]. cbn in Hq.
  change (run false q (fresh false x (Sol cl [] [l]) s) = Some s2) in Hq.
  destruct (run_stay false q _ s2 x _ I1 U A Hq) as [D G]. destruct (G _ B) as [o' [G1 G2]].
  destruct o' as [| | |cl' refs' own']; cbn in G2; try contradiction. injection G2 as <- <- <-.
  cbn [step]. rewrite D, G1. cbn [observe]. rewrite G1. reflexivity.
Qed.

(** ** Structures by reference *)
Lemma by_reference cl r p s x y s1 v q s2 :
  parameters cl = [(r, ByReference)] -> x <> y ->
  run false p start = Some s -> step false s (NewSol x cl [y]) = Done s1 v -> untouched x q -> untouched y q -> run false q s1 = Some s2 ->
  exists b t old added, assoc y (names s) = Some b /\ cell (heap s) b = Some (Kin t old) /\ assoc y (names s2) = Some b /\ cell (heap s2) b = Some (Kin t (old ++ added)) /\
    step false s2 (Call x) = Done s2 (Structures [old ++ added]).
Proof.
  intros P XY Hp E U Uy Hq. assert (I := run_inv false p _ _ (start_inv false) Hp). assert (I1 := step_inv false s (NewSol x cl [y]) I). rewrite E in I1. cbn [outcome_inv] in I1.
  cbn [step] in E. destruct (lookup_all [y] (names s)) as [l0|] eqn:L; [|discriminate].
  destruct (lookup1 _ _ _ L) as [b [-> Hb]]. rewrite P in E. cbn in E. destruct (fits (heap s) (r, ByReference) b) eqn:F; [|discriminate]. cbn in E.
  injection E as <- <-.
  change (run false q (fresh false x (Sol cl [b] []) s) = Some s2) in Hq.
  assert (K : exists t l, cell (heap s) b = Some (Kin t l)).
  { unfold fits in F; cbn in F. destruct r; destruct (cell (heap s) b) as [[| |t l|cl' ? ?]|] eqn:C; try discriminate; eauto; exfalso; destruct cl; cbn in P; discriminate. }
  destruct K as [t [l C]].
  destruct (fresh_new false x (Sol cl [b] []) s) as [A B].
  destruct (fresh_kept false x (Sol cl [b] []) s y b I XY Hb) as [A2 B2].
  destruct (run_stay false q _ s2 x _ I1 U A Hq) as [D G]. destruct (G _ B) as [o' [G1 G2]].
  destruct o' as [| | |cl' refs' own']; cbn in G2; try contradiction. injection G2 as <- <- <-.
  destruct (run_stay false q _ s2 y _ I1 Uy A2 Hq) as [D2 H]. rewrite <- B2 in C. destruct (H _ C) as [o2 [H1 H2]].
  destruct o2 as [| |t2 l2|]; cbn in H2; try contradiction. destruct H2 as [<- [m ->]].
  exists b, t, l, m. split; auto. split; [now rewrite <- B2|]. split; auto. split; auto.
  cbn [step]. rewrite D, G1. cbn [observe]. rewrite G1. cbn [fold_right].
  assert (O : observe (length (heap s)) (heap s2) b = Some [l ++ m]) by (destruct (length (heap s)); cbn [observe]; rewrite H1; reflexivity).
  rewrite O. cbn. reflexivity.
Qed.

(** ** Attributes *)
Lemma nth_error_skipn_at {A} (l : list A) n j : nth_error (skipn n l) j = nth_error l (n + j).
Proof. revert l; induction n; intros [|y l]; cbn; auto. destruct j; reflexivity. Qed.
Lemma nth_error_firstn_at {A} (l : list A) n j : nth_error (firstn n l) j = if Nat.ltb j n then nth_error l j else None.
Proof. revert l j; induction n; intros [|y l] [|j]; cbn [nth_error firstn]; auto.
  - destruct (Nat.ltb (S j) (S n)); reflexivity.
  - rewrite IHn. reflexivity.
Qed.
Lemma nth_slice off n l j : nth_error (slice off n l) j = if Nat.ltb j n then nth_error l (off + j) else None.
Proof. unfold slice. rewrite nth_error_firstn_at, nth_error_skipn_at. reflexivity. Qed.
Lemma nth_paste off new l j : off + length new <= length l ->
  nth_error (paste off new l) j = if Nat.leb off j && Nat.ltb j (off + length new) then nth_error new (j - off) else nth_error l j.
Proof.
  intro H. unfold paste. destruct (Nat.leb_spec off j); cbn [andb].
  - rewrite nth_error_app2 by (rewrite firstn_length; lia). rewrite firstn_length. replace (Init.Nat.min off (length l)) with off by lia.
    destruct (Nat.ltb_spec j (off + length new)).
    + rewrite nth_error_app1 by lia. reflexivity.
    + rewrite nth_error_app2 by lia. rewrite nth_error_skipn_at. f_equal. lia.
  - rewrite nth_error_app1 by (rewrite firstn_length; lia). rewrite nth_error_firstn_at. destruct (Nat.ltb_spec j off); [reflexivity|lia].
Qed.
Lemma item_at ka s z c r off j : inv ka s -> at_place s z c r off ->
  exists cr d, cell (heap s) r = Some (Val cr d) /\ off + width c <= length d /\ item s z j = if Nat.ltb j (width c) then nth_error d (off + j) else None.
Proof.
  intros I [a [A B]]. destruct (read_place ka _ _ _ _ _ I B) as [cr [d [C [D [E F]]]]]. exists cr, d. split; auto. split; auto.
  unfold item. rewrite A, D. apply nth_slice.
Qed.
Lemma at_place_put s a o o' z c r off : cell (heap s) a = Some o -> like o o' ->
  (at_place (mkSt (put a (Some o') (heap s)) (names s)) z c r off <-> at_place s z c r off).
Proof.
  intros H K. unfold at_place; cbn [heap names]. split; intros [b [A B]]; exists b; split; auto; [rewrite <- B; symmetry|rewrite <- B]; eapply place_put; eauto.
Qed.

(** writing one number *)
Lemma set_item ka s x i v c r off : inv ka s -> at_place s x c r off -> i < width c ->
  exists s', step ka s (SetItem x i v) = Done s' Nothing /\ names s' = names s /\
    (forall z cz rz oz, at_place s z cz rz oz -> at_place s' z cz rz oz /\
       forall j, j < width cz -> item s' z j = if Nat.eqb rz r && Nat.eqb (oz + j) (off + i) then Some v else item s z j).
Proof.
  intros I [a [A B]] L. destruct (place_root ka _ _ _ _ _ I B) as [cr [d [C [D [E _]]]]].
  set (s' := mkSt (put r (Some (Val cr (put (off + i) v d))) (heap s)) (names s)).
  assert (K : like (Val cr d) (Val cr (put (off + i) v d))) by (cbn; now rewrite put_length).
  assert (I' : inv ka s') by (eapply put_inv; eauto).
  exists s'. split; [cbn [step]; rewrite A, B, C; destruct (Nat.ltb_spec i (width c)); [reflexivity|lia]|]. split; [reflexivity|].
  intros z cz rz oz Pz. assert (Pz' : at_place s' z cz rz oz) by (eapply at_place_put; eauto). split; auto.
  intros j Lj. destruct (item_at ka s' z cz rz oz j I' Pz') as [c1 [d1 [C1 [_ E1]]]]. destruct (item_at ka s z cz rz oz j I Pz) as [c2 [d2 [C2 [L2 E2]]]].
  rewrite E1, E2. destruct (Nat.ltb_spec j (width cz)); [|lia]. unfold s' in C1; cbn [heap] in C1. rewrite cell_put in C1 by (eapply cell_lt; eauto).
  rewrite (Nat.eqb_sym rz r). destruct (Nat.eqb_spec r rz) as [<-|n]; cbn.
  - injection C1 as <- <-. rewrite C in C2. injection C2 as <- <-. rewrite nth_error_put. rewrite (Nat.eqb_sym (oz + j)).
    destruct (Nat.eqb_spec (off + i) (oz + j)); auto. destruct (Nat.ltb_spec (oz + j) (length d)); [reflexivity|lia].
  - rewrite C2 in C1. injection C1 as <- <-. reflexivity.
Qed.
(** assigning an attribute *)
Lemma set_attr ka s y sec z c r off c' k r1 o1 : inv ka s -> at_place s y c r off -> attribute c sec = Some (c', k) -> at_place s z c' r1 o1 ->
  exists s', step ka s (SetAttr y sec z) = Done s' Nothing /\ names s' = names s /\
    (forall w cw rw ow, at_place s w cw rw ow -> at_place s' w cw rw ow /\
       forall j, j < width cw -> item s' w j =
         if Nat.eqb rw r && (Nat.leb (off + k) (ow + j) && Nat.ltb (ow + j) (off + k + width c')) then item s z (ow + j - (off + k)) else item s w j).
Proof.
  intros I [a [A B]] At Pz0. assert (Pz1 := Pz0). destruct Pz0 as [b [Az Bz]]. destruct (place_root ka _ _ _ _ _ I B) as [cr [d [C [D [E _]]]]].
  destruct (read_place ka _ _ _ _ _ I Bz) as [crz [dz [Cz [Rz [Lz Dz]]]]].
  assert (W := attribute_width _ _ _ _ At). assert (SL := slice_length o1 (width c') dz Lz).
  set (s' := mkSt (put r (Some (Val cr (paste (off + k) (slice o1 (width c') dz) d))) (heap s)) (names s)).
  assert (K : like (Val cr d) (Val cr (paste (off + k) (slice o1 (width c') dz) d))) by (cbn; rewrite paste_length; auto; rewrite SL; lia).
  assert (I' : inv ka s') by (eapply put_inv; eauto).
  exists s'. split.
  { cbn [step]. rewrite A, Az, B, Bz, Rz, At. replace (same c' c') with true by (destruct c'; reflexivity). rewrite C. reflexivity. }
  split; [reflexivity|].
  intros w cw rw ow Pw. assert (Pw' : at_place s' w cw rw ow) by (eapply at_place_put; eauto). split; auto.
  intros j Lj. destruct (item_at ka s' w cw rw ow j I' Pw') as [c1 [d1 [C1 [_ E1]]]]. destruct (item_at ka s w cw rw ow j I Pw) as [c2 [d2 [C2 [L2 E2]]]].
  rewrite E1, E2. destruct (Nat.ltb_spec j (width cw)); [|lia]. unfold s' in C1; cbn [heap] in C1. rewrite cell_put in C1 by (eapply cell_lt; eauto).
  rewrite (Nat.eqb_sym rw r). destruct (Nat.eqb_spec r rw) as [<-|n]; cbn [andb].
  - injection C1 as <- <-. rewrite C in C2. injection C2 as <- <-. rewrite nth_paste by (rewrite SL; lia). rewrite SL.
    destruct (Nat.leb_spec (off + k) (ow + j)); cbn [andb]; auto. destruct (Nat.ltb_spec (ow + j) (off + k + width c')); auto.
    unfold item. rewrite Az, Rz. reflexivity.
  - rewrite C2 in C1. injection C1 as <- <-. reflexivity.
Qed.
(** taking an attribute, and copying *)
Lemma get_attr ka s x y sec c r off c' k : inv ka s -> at_place s y c r off -> attribute c sec = Some (c', k) ->
  exists s', step ka s (GetAttr x y sec) = Done s' Nothing /\ at_place s' x c' r (off + k) /\
    (forall z cz rz oz, z <> x -> at_place s z cz rz oz -> at_place s' z cz rz oz).
Proof.
  intros I [a [A B]] At. exists (fresh ka x (Attr c' r (off + k) a) s). split; [cbn [step]; now rewrite A, B, At|].
  destruct (fresh_new ka x (Attr c' r (off + k) a) s) as [D E]. split.
  - exists (length (heap s)). split; auto. unfold place. now rewrite E.
  - intros z cz rz oz n [b [H1 H2]]. destruct (fresh_kept ka x (Attr c' r (off + k) a) s z b I ltac:(congruence) H1) as [F G].
    exists b. split; auto. unfold place in *. now rewrite G.
Qed.
Lemma copy_val ka s x y c r off : inv ka s -> at_place s y c r off ->
  exists s', step ka s (CopyVal x y) = Done s' Nothing /\
    (exists r', at_place s' x c r' 0 /\ forall z cz rz oz, z <> x -> at_place s z cz rz oz -> at_place s' z cz rz oz /\ rz <> r') /\
    forall j, item s' x j = item s y j.
Proof.
  intros I [a [A B]]. destruct (read_place ka _ _ _ _ _ I B) as [cr [d [C [D [E F]]]]].
  exists (fresh ka x (Val c (slice off (width c) d)) s). split; [cbn [step]; now rewrite A, B, D|].
  assert (SL := slice_length off (width c) d E).
  destruct (fresh_new ka x (Val c (slice off (width c) d)) s) as [G H].
  assert (P : at_place (fresh ka x (Val c (slice off (width c) d)) s) x c (length (heap s)) 0) by (exists (length (heap s)); split; auto; unfold place; now rewrite H).
  split.
  - exists (length (heap s)). split; auto. intros z cz rz oz n [b [H1 H2]].
    destruct (fresh_kept ka x (Val c (slice off (width c) d)) s z b I ltac:(congruence) H1) as [K1 K2]. split.
    + exists b. split; auto. unfold place in *. now rewrite K2.
    + destruct (place_root ka _ _ _ _ _ I H2) as [c3 [d3 [H3 _]]]. apply cell_lt in H3. lia.
  - intro j. unfold item. rewrite G, A, D. unfold read, place. rewrite H. rewrite H. unfold slice at 1. cbn [skipn]. rewrite firstn_all2 by lia. reflexivity.
Qed.
(** an attribute stays the same part of the same object as long as its name is kept *)
Lemma attr_stays ka q s s' x c r off : inv ka s -> at_place s x c r off -> untouched x q -> run ka q s = Some s' -> at_place s' x c r off.
Proof.
  intros I [a [A B]] U H. destruct (run_stay ka q s s' x a I U A H) as [D E]. exists a. split; auto.
  unfold place in *. destruct (cell (heap s) a) as [o|] eqn:C; [|discriminate]. destruct (E o C) as [o' [E1 E2]]. rewrite E1.
  destruct o, o'; cbn in E2; try contradiction; try discriminate.
  - destruct E2 as [-> _]. exact B.
  - injection E2 as -> -> -> ->. exact B.
Qed.

(** ** Dangling references *)
Lemma dangling cl : parameters cl = [(AChain, ByReference)] ->
  run false [NewKin 0 false; AddSeg 0 7; NewSol 1 cl [0]; Call 1; Del 0; Call 1] start = None /\
  run false [NewKin 0 false; AddSeg 0 7; NewSol 1 cl [0]; Call 1; NewKin 0 false; Call 1] start = None /\
  run false [NewKin 0 false; AddSeg 0 7; NewSol 1 cl [0]; Call 1; Alias 2 0; Del 0; Call 1] start <> None.
Proof. intro H. destruct cl; try discriminate H; repeat split; try reflexivity; cbn; discriminate. Qed.
Lemma dangling_solvers :
  (forall cl, In cl [FkPos; FkVel; Jac; JacDot; VelPinv; VelNso; VelWdls; VelGivens; PosLMA; IdRNE; FdRNE; HdVereshchagin; DynParam; Estimator] -> parameters cl = [(AChain, ByReference)]) /\
  (forall cl d, In cl [PosNR; PosNRJL] -> In d [0; 1; 2] ->
     run false [NewKin 0 false; AddSeg 0 7; NewSol 1 FkPos [0]; NewSol 2 VelPinv [0]; NewSol 3 cl [0; 1; 2]; Call 3; Del d; Call 3] start = None) /\
  (forall d, In d [1; 2] ->
     run false [NewKin 0 true; AddSeg 0 7; NewSol 1 TFkPos [0]; NewSol 2 TVelWdls [0]; NewSol 3 TPosNRJL [0; 1; 2]; Call 3; Del d; Call 3] start = None /\
     run false [NewKin 0 true; AddSeg 0 7; NewSol 1 TFkPos [0]; NewSol 2 TVelWdls [0]; NewSol 3 TPosOnline [1; 2]; Call 3; Del d; Call 3] start = None) /\
  run false [NewKin 0 true; AddSeg 0 7; NewSol 1 TFkPos [0]; NewSol 2 TVelWdls [0]; NewSol 3 TPosNRJL [0; 1; 2]; Call 3; Del 0; Call 3] start <> None /\
  run false [NewKin 0 true; AddSeg 0 7; NewSol 1 TIdRNE [0]; Call 1; Del 0; Call 1] start = None.
Proof.
  split; [|split; [|split; [|split]]].
  - intros cl H. cbn in H. repeat (destruct H as [<-|H]; [reflexivity|]). destruct H.
  - intros cl d [<-|[<-|[]]] [<-|[<-|[<-|[]]]]; reflexivity.
  - intros d [<-|[<-|[]]]; split; reflexivity.
  - vm_compute. discriminate.
  - reflexivity.
Qed.
Lemma own_copies cl p s x y s1 v q s2 : In cl [TFkPos; TJac; TVelWdls] ->
  run false p start = Some s -> step false s (NewSol x cl [y]) = Done s1 v -> untouched x q -> run false q s1 = Some s2 ->
  exists b l, assoc y (names s) = Some b /\ cell (heap s) b = Some (Kin true l) /\ step false s2 (Call x) = Done s2 (Structures [l]).
Proof. intros [<-|[<-|[<-|[]]]]; apply own_copy; reflexivity. Qed.
Lemma copies_example :
  (exists s, run false [NewKin 0 true; AddSeg 0 7; NewSol 1 TFkPos [0]; AddSeg 0 8; Del 0] start = Some s /\ step false s (Call 1) = Done s (Structures [[7]])) /\
  (exists s, run false [NewKin 0 false; AddSeg 0 7; NewSol 1 FkPos [0]; AddSeg 0 8] start = Some s /\ step false s (Call 1) = Done s (Structures [[7; 8]])).
Proof. split; eexists; split; reflexivity. Qed.
Section Reach.
Variables (p : list op) (s : state).
Hypothesis H : run false p start = Some s.
Let I : inv false s := run_inv false p _ _ (start_inv false) H.
Definition reach_get_ x y sec c r off c' k := get_attr false s x y sec c r off c' k I.
Definition reach_stays_ q s' x c r off := attr_stays false q s s' x c r off I.
Definition reach_item_ x i v c r off := set_item false s x i v c r off I.
Definition reach_assign_ y sec z c r off c' k r1 o1 := set_attr false s y sec z c r off c' k r1 o1 I.
Definition reach_copy_ x y c r off := copy_val false s x y c r off I.
End Reach.
Definition reach_get p s x y sec c r off c' k H := reach_get_ p s H x y sec c r off c' k.
Definition reach_stays p s q s' x c r off H := reach_stays_ p s H q s' x c r off.
Definition reach_item p s x i v c r off H := reach_item_ p s H x i v c r off.
Definition reach_assign p s y sec z c r off c' k r1 o1 H := reach_assign_ p s H y sec z c r off c' k r1 o1.
Definition reach_copy p s x y c r off H := reach_copy_ p s H x y c r off.
Lemma attributes_example :
  (exists s, run false [NewVal 0 CFrameVel (repeat 1%R 18); GetAttr 1 0 true; GetAttr 2 1 true; Del 0; Del 1; SetItem 2 0 5%R] start = Some s /\
     step false s (Read 2) = Done s (Numbers [5%R; 1%R; 1%R])) /\
  (exists s, run false [NewVal 0 CFrame (repeat 1%R 12); GetAttr 1 0 true; SetItem 1 0 5%R] start = Some s /\
     step false s (Read 0) = Done s (Numbers (5%R :: repeat 1%R 11))).
Proof. split; eexists; split; reflexivity. Qed.
(** ** Layout, type errors and copies of chains *)
Lemma layout c c1 k1 c2 k2 : attribute c false = Some (c1, k1) -> attribute c true = Some (c2, k2) ->
  width c = width c1 + width c2 /\ (match c with CFrame => k2 = 0 /\ k1 = width c2 | _ => k1 = 0 /\ k2 = width c1 end).
Proof. destruct c; cbn; intros E F; try discriminate; injection E as <- <-; injection F as <- <-; auto. Qed.
Lemma classes : (forall c, attribute c false = None <-> In c [CVector; CRotation]) /\ (forall c, attribute c true = None <-> In c [CVector; CRotation]) /\
  map (fun c => (option_map fst (attribute c false), option_map fst (attribute c true))) [CFrame; CTwist; CWrench; CVectorVel; CRotationVel; CFrameVel; CTwistVel] =
  [(Some CRotation, Some CVector); (Some CVector, Some CVector); (Some CVector, Some CVector); (Some CVector, Some CVector); (Some CRotation, Some CVector);
   (Some CRotationVel, Some CVectorVel); (Some CVectorVel, Some CVectorVel)].
Proof. split; [|split; [|reflexivity]]; intros []; cbn; split; intuition discriminate. Qed.
Lemma type_errors p s : run false p start = Some s ->
  (forall y sec z c r off c' k cz rz oz, at_place s y c r off -> attribute c sec = Some (c', k) -> at_place s z cz rz oz -> cz <> c' -> step false s (SetAttr y sec z) = Raises) /\
  (forall x i v c r off, at_place s x c r off -> width c <= i -> step false s (SetItem x i v) = Raises) /\
  (forall x y c r off sec, at_place s y c r off -> attribute c sec = None -> step false s (GetAttr x y sec) = Raises).
Proof.
  intro H. assert (I := run_inv false p _ _ (start_inv false) H). split; [|split].
  - intros y sec z c r off c' k cz rz oz [a [A B]] At [b [Az Bz]] N. cbn [step]. destruct (read_place false _ _ _ _ _ I Bz) as [crz [dz [Cz [Rz _]]]].
    rewrite A, Az, B, Bz, Rz, At. destruct (same c' cz) eqn:S; auto. apply same_eq in S. congruence.
  - intros x i v c r off [a [A B]] L. cbn [step]. rewrite A, B. destruct (Nat.ltb_spec i (width c)); [lia|reflexivity].
  - intros x y c r off sec [a [A B]] At. cbn [step]. now rewrite A, B, At.
Qed.
Lemma chain_copy p s x y t l : run false p start = Some s -> holds_segs s y t l ->
  exists s', step false s (CopyKin x y) = Done s' Nothing /\ holds_segs s' x t l /\
    (forall z, z <> x -> forall n s2 v tz lz, holds_segs s' z tz lz -> step false s' (AddSeg z n) = Done s2 v -> holds_segs s2 z tz (lz ++ [n]) /\ holds_segs s2 x t l) /\
    (forall n s2 v, step false s' (AddSeg x n) = Done s2 v -> holds_segs s2 x t (l ++ [n]) /\ forall z tz lz, z <> x -> holds_segs s' z tz lz -> holds_segs s2 z tz lz).
Proof.
  intros H [a [A B]]. assert (I := run_inv false p _ _ (start_inv false) H).
  set (s' := fresh false x (Kin t l) s).
  assert (E : step false s (CopyKin x y) = Done s' Nothing) by (cbn [step]; now rewrite A, B).
  assert (I' : inv false s') by (assert (X := step_inv false s (CopyKin x y) I); rewrite E in X; exact X).
  destruct (fresh_new false x (Kin t l) s) as [D F]. fold s' in D, F.
  assert (NE : forall z b, z <> x -> assoc z (names s') = Some b -> b <> length (heap s)).
  { intros z b n Hz. unfold s', fresh in Hz. rewrite assoc_bind in Hz by congruence. cbn [names] in Hz.
    destruct (named_cell false s z b I Hz) as [o Ho]. apply cell_lt in Ho. lia. }
  exists s'. split; [exact E|]. split; [exists (length (heap s)); auto|]. split.
  - intros z n m s2 v tz lz [b [Hz Cz]]. cbn [step]. rewrite Hz, Cz. intro Q. injection Q as <- <-. assert (Lb := cell_lt _ _ _ Cz). split.
    + exists b. split; auto. cbn [heap]. rewrite cell_put by auto. now rewrite Nat.eqb_refl.
    + exists (length (heap s)). split; auto. cbn [heap]. rewrite cell_put by auto. destruct (Nat.eqb_spec b (length (heap s))); auto. exfalso. exact (NE z b n Hz e).
  - intros n s2 v. cbn [step]. rewrite D, F. intro Q. injection Q as <- <-. assert (Lb := cell_lt _ _ _ F). split.
    + exists (length (heap s)). split; auto. cbn [heap]. rewrite cell_put by auto. now rewrite Nat.eqb_refl.
    + intros z tz lz Hn [b [Hz Cz]]. exists b. split; auto. cbn [heap]. rewrite cell_put by auto. destruct (Nat.eqb_spec (length (heap s)) b); auto. exfalso. exact (NE z b Hn Hz (eq_sym e)).
Qed.
