(** Proofs about the text of joints, segments, chains and arrays (C75). *)
From Coq Require Import Reals ZArith Ascii String List Bool Permutation Arith Lia Lra.
From Flocq Require Import Core.
From Verif Require Import FramesModel Outcome LoopProofs InertiaModel DualModel KinModel KinSpec PathModel IoModel IoSpec IoNum IoRound IoFinal TreeModel TreeSpec
  MiscModel KioModel KioSpec KioTree.
Import ListNotations.
Local Open Scope char_scope.
Local Open Scope list_scope.
Local Open Scope Z_scope.

(** *** a text that is read from the front can be taken off *)
Lemma reads_inj {T : Type} (rdr : istr -> T -> oio T) (old : T) t1 t2 x1 x2 r1 r2 : reads rdr t1 x1 -> reads rdr t2 x2 ->
  t1 ++ r1 = t2 ++ r2 -> x1 = x2 /\ r1 = r2.
Proof.
  intros A B E. specialize (A [] r1 [] old). specialize (B [] r2 [] old). rewrite E in A. rewrite A in B. injection B as B1 B2 B3. auto.
Qed.
Lemma agree_vmap p a b : vmap (fun x => round10 p x) a = vmap (fun x => round10 p x) b -> agree_v p a b.
Proof. intros E. injection E as E1 E2 E3. repeat (constructor; [assumption|]). constructor. Qed.
Lemma vector_inj p a b x y : 1 <= p -> write_Vector p a ++ x = write_Vector p b ++ y -> agree_v p a b /\ x = y.
Proof.
  intros P E. destruct (reads_inj (read_Vector (fun x => x)) v_zero _ _ _ _ _ _ (back_Vector _ p a P) (back_Vector _ p b P) E) as [A B].
  split; [apply agree_vmap; exact A|exact B].
Qed.
Lemma frame_inj p a b x y : 1 <= p -> write_Frame p a ++ x = write_Frame p b ++ y -> agree_f p a b /\ x = y.
Proof.
  intros P E. destruct (reads_inj (read_Frame (fun x => x)) f_id _ _ _ _ _ _ (back_Frame _ p a P) (back_Frame _ p b P) E) as [A B].
  injection A as M1 M2 M3 M4 M5 M6 M7 M8 M9 V1 V2 V3.
  split; [|exact B]. split; [repeat (constructor; [assumption|])|repeat (constructor; [assumption|])]; constructor.
Qed.
Lemma type_inj a b x y : lit (joint_getTypeName a) ++ lit ", axis: " ++ x = lit (joint_getTypeName b) ++ lit ", axis: " ++ y -> jtype a = jtype b /\ x = y.
Proof.
  unfold joint_getTypeName. destruct (jtype a), (jtype b); cbn; intros E; try discriminate E; injection E as E; auto.
Qed.
Lemma joint_inj p a b x y : 1 <= p -> ~ In ":" (lit (jname a)) -> ~ In ":" (lit (jname b)) ->
  write_Joint p a ++ x = write_Joint p b ++ y -> agree_joint p a b /\ x = y.
Proof.
  intros P Na Nb E. unfold write_Joint in E. rewrite <- !app_assoc in E.
  change (lit ":[") with (":" :: lit "[") in E. rewrite <- !app_comm_cons in E.
  apply split_at in E; auto. destruct E as [En E]. apply lit_inj in En. apply app_inv_head in E.
  apply type_inj in E. destruct E as [Et E]. apply vector_inj in E; auto. destruct E as [Ea E]. apply app_inv_head in E.
  apply vector_inj in E; auto. destruct E as [Eo E]. apply app_inv_head in E. repeat split; auto; apply Ea || apply Eo.
Qed.
Lemma segment_inj p a b x y : 1 <= p -> no_colon a -> no_colon b -> write_Segment p a ++ x = write_Segment p b ++ y -> agree_segment p a b /\ x = y.
Proof.
  intros P [Na Ja] [Nb Jb] E. unfold write_Segment in E. rewrite <- !app_assoc in E.
  change (lit ":[") with (":" :: lit "[") in E. rewrite <- !app_comm_cons in E.
  apply split_at in E; auto. destruct E as [En E]. apply lit_inj in En. apply app_inv_head in E.
  apply joint_inj in E; auto. destruct E as [Ej E]. apply (app_inv_head (lit "," ++ [nl] ++ lit " tip: " ++ [nl])) in E. apply frame_inj in E; auto. destruct E as [Ef E].
  apply app_inv_head in E. split; [|exact E]. split; [exact En|]. split; [exact Ej|exact Ef].
Qed.
(** chains *)
Lemma write_Chain_list p c : chain_wf c -> write_Chain p c = Ret (lit "[" ++ flat_map (fun s => write_Segment p s ++ [nl]) (ch_segs c) ++ lit "]").
Proof.
  intros [W _]. unfold write_Chain. rewrite W.
  assert (G : for_loop (length (ch_segs c)) 0 (fun i t => let! s := chain_getSegment c i in Ret (t ++ write_Segment p s ++ [nl])) (lit "[")
     = Ret (lit "[" ++ flat_map (fun s => write_Segment p s ++ [nl]) (ch_segs c))).
  { unfold chain_getSegment. generalize (lit "[") as t.
    assert (H : forall pre suf t, ch_segs c = pre ++ suf ->
       for_loop (length suf) (length pre) (fun i t => let! s := aget (ch_segs c) i in Ret (t ++ write_Segment p s ++ [nl])) t
       = Ret (t ++ flat_map (fun s => write_Segment p s ++ [nl]) suf)).
    { intros pre suf. revert pre. induction suf as [|s suf IH]; intros pre t E; cbn [for_loop length flat_map]; [rewrite app_nil_r; reflexivity|].
      assert (A : aget (ch_segs c) (length pre) = Ret s).
      { unfold aget. rewrite E, nth_error_app2, Nat.sub_diag by lia. reflexivity. }
      rewrite A. cbn [obind]. specialize (IH (pre ++ [s]) (t ++ write_Segment p s ++ [nl])).
      rewrite app_length in IH. cbn [length] in IH. rewrite Nat.add_1_r in IH. rewrite IH by (rewrite <- app_assoc; exact E).
      f_equal. rewrite <- !app_assoc. reflexivity. }
    intros t. exact (H [] (ch_segs c) t eq_refl). }
  rewrite G. cbn [obind]. rewrite <- app_assoc. reflexivity.
Qed.
Lemma segment_long p s : (2 <= length (write_Segment p s))%nat.
Proof. unfold write_Segment. rewrite !app_length. cbn [length lit list_ascii_of_string]. lia. Qed.
Lemma segments_inj p l1 : forall l2, 1 <= p -> (forall s, In s l1 \/ In s l2 -> no_colon s) ->
  flat_map (fun s => write_Segment p s ++ [nl]) l1 ++ lit "]" = flat_map (fun s => write_Segment p s ++ [nl]) l2 ++ lit "]" -> Forall2 (agree_segment p) l1 l2.
Proof.
  induction l1 as [|a l1 IH]; intros [|b l2] P N E; cbn [flat_map] in E.
  - constructor.
  - exfalso. apply (f_equal (@length ascii)) in E. rewrite !app_length in E. pose proof (segment_long p b). cbn in E. lia.
  - exfalso. apply (f_equal (@length ascii)) in E. rewrite !app_length in E. pose proof (segment_long p a). cbn in E. lia.
  - rewrite <- !app_assoc in E. apply segment_inj in E; auto; [|apply N; cbn; auto|apply N; cbn; auto]. destruct E as [A E].
    apply app_inv_head in E. constructor; auto. apply IH; auto. intros s [I|I]; apply N; cbn; auto.
Qed.
Lemma chain_inj p a b s : 1 <= p -> chain_wf a -> chain_wf b -> (forall s, In s (ch_segs a) \/ In s (ch_segs b) -> no_colon s) ->
  write_Chain p a = Ret s -> write_Chain p b = Ret s -> Forall2 (agree_segment p) (ch_segs a) (ch_segs b).
Proof.
  intros P Wa Wb N Ea Eb. rewrite write_Chain_list in Ea, Eb by auto. injection Ea as <-. injection Eb as E.
  apply segments_inj; auto.
Qed.
(** the statements for a whole text *)
Lemma joint_text p a b : 1 <= p -> ~ In ":" (lit (jname a)) -> ~ In ":" (lit (jname b)) -> write_Joint p a = write_Joint p b -> agree_joint p a b.
Proof. intros P Na Nb E. eapply (joint_inj p a b [] []); auto. congruence. Qed.
Lemma segment_text p a b : 1 <= p -> no_colon a -> no_colon b -> write_Segment p a = write_Segment p b -> agree_segment p a b.
Proof. intros P Na Nb E. eapply (segment_inj p a b [] []); auto. congruence. Qed.
Lemma agree_exact p x y : 17 <= p -> is_double x -> is_double y -> agree p x y -> x = y.
Proof. intros P Dx Dy E. rewrite <- (seventeen p x P Dx), <- (seventeen p y P Dy). unfold agree in E. rewrite E. reflexivity. Qed.

(** *** the width of a number *)
Lemma strip_trailing_len t : (length (strip_trailing t) <= length t)%nat.
Proof. destruct (strip_trailing_spec t) as [k E]. apply (f_equal (@length ascii)) in E. rewrite app_length in E. lia. Qed.
Lemma fraction_len ip fp : (length (with_fraction ip fp) <= length ip + 1 + length fp)%nat.
Proof.
  unfold with_fraction. pose proof (strip_trailing_len fp) as L. destruct (strip_trailing fp); cbn [length] in *; [lia|].
  rewrite app_length. cbn [length]. lia.
Qed.
Lemma fmt_nat_len z : 0 <= z < 100 -> (length (fmt_nat z) <= 2)%nat.
Proof.
  intros H. assert (A : forallb (fun n => (length (fmt_nat (Z.of_nat n)) <=? 2)%nat) (seq 0 100) = true) by (vm_compute; reflexivity).
  rewrite forallb_forall in A. specialize (A (Z.to_nat z)). rewrite Z2Nat.id in A by lia. apply Nat.leb_le. apply A. apply in_seq. lia.
Qed.
Lemma fmt_nat_len1 z : 0 <= z < 10 -> (length (fmt_nat z) <= 1)%nat.
Proof.
  intros H. assert (A : forallb (fun n => (length (fmt_nat (Z.of_nat n)) <=? 1)%nat) (seq 0 10) = true) by (vm_compute; reflexivity).
  rewrite forallb_forall in A. specialize (A (Z.to_nat z)). rewrite Z2Nat.id in A by lia. apply Nat.leb_le. apply A. apply in_seq. lia.
Qed.
Lemma firstn_skipn_len (n : nat) (l : text) : (length (firstn n l) + length (skipn n l) = length l)%nat.
Proof. rewrite <- app_length, firstn_skipn. reflexivity. Qed.
Lemma ordinary_exp p x : x <> 0%R -> ordinary x -> -99 <= snd (dec_parts p x) <= 99.
Proof.
  intros Nz [E|[L U]]; [contradiction|]. rewrite pow10_bpow in L, U.
  assert (A : -98 <= mag radix10 x) by (apply mag_ge_bpow; exact L).
  assert (B : mag radix10 x <= 99) by (apply mag_le_bpow; auto).
  unfold dec_parts. destruct (_ =? _); cbn [snd]; lia.
Qed.
Lemma fmt_abs_len p x : 1 <= p -> x <> 0%R -> ordinary x -> (length (fmt_abs p x) <= Z.to_nat p + 5)%nat.
Proof.
  intros P Nz O. pose proof (ordinary_exp p x Nz O) as X. unfold fmt_abs. destruct (dec_parts p x) as [d e]. cbn [snd] in X.
  pose proof (digits_len (Z.to_nat p) d) as L. set (ds := digits (Z.to_nat p) d) in *.
  destruct ((-4 <=? e) && (e <? p))%bool eqn:C; [apply andb_prop in C; destruct C as [C1 C2]; apply Z.leb_le in C1; apply Z.ltb_lt in C2; destruct (Z.leb_spec 0 e)|].
  - eapply Nat.le_trans; [apply fraction_len|]. pose proof (firstn_skipn_len (Z.to_nat (e + 1)) ds). lia.
  - eapply Nat.le_trans; [apply fraction_len|]. rewrite app_length, repeat_length. cbn [length]. lia.
  - rewrite app_length. pose proof (fraction_len (firstn 1 ds) (skipn 1 ds)) as F. pose proof (firstn_skipn_len 1 ds) as G. cbn [length].
    destruct (Z.ltb_spec (Z.abs e) 10).
    + cbn [length]. pose proof (fmt_nat_len1 (Z.abs e) ltac:(lia)). lia.
    + pose proof (fmt_nat_len (Z.abs e) ltac:(lia)). lia.
Qed.
Lemma ordinary_opp x : ordinary x -> ordinary (- x).
Proof. intros [->|H]; [left; lra|right; rewrite Rabs_Ropp; exact H]. Qed.
Lemma fmt_double_len p x : 1 <= p -> ordinary x -> (length (fmt_double p x) <= Z.to_nat p + 6)%nat.
Proof.
  intros P O. unfold fmt_double. destruct (Req_EM_T x 0) as [E|E]; [cbn; lia|].
  pose proof (fmt_abs_len p x P E O). destruct (Rlt_dec x 0); cbn [length]; lia.
Qed.
Lemma put_len p x : 1 <= p <= 6 -> ordinary x -> length (put p x) = 12%nat.
Proof.
  intros P O. unfold put, setw, KDL_FRAME_WIDTH. rewrite app_length, repeat_length. pose proof (fmt_double_len p x ltac:(lia) O). lia.
Qed.
Lemma put_cell p x : 1 <= p -> cell p x (put p x).
Proof.
  intros P. unfold put, setw. eexists _, _. split; [reflexivity|]. split; [|apply fmt_numeral; exact P].
  intros c I. apply repeat_spec in I. exact I.
Qed.
Lemma window_flat (p : Z) l : (forall x, In x l -> length (put p x) = 12%nat) -> forall i r, (i < length l)%nat ->
  window (12 * i) 12 (flat_map (put p) l ++ r) = put p (nth i l 0%R).
Proof.
  induction l as [|x l IH]; intros H i r L; cbn [length] in L; [lia|]. pose proof (H x (or_introl eq_refl)) as Hx. destruct i as [|i].
  - cbn [flat_map nth]. rewrite Nat.mul_0_r. unfold window. rewrite <- app_assoc. rewrite <- Hx at 1. change (skipn 0 (put p x ++ flat_map (put p) l ++ r)) with (put p x ++ flat_map (put p) l ++ r).
    rewrite firstn_app, Nat.sub_diag, firstn_all, firstn_O. apply app_nil_r.
  - cbn [flat_map nth]. unfold window in *. replace (12 * S i)%nat with (12 + 12 * i)%nat by lia.
    rewrite <- app_assoc.
    rewrite skipn_app, Hx. rewrite skipn_all2 by lia. cbn [app]. replace (12 + 12 * i - 12)%nat with (12 * i)%nat by lia.
    apply IH; [|lia]. intros y I. apply H. right. exact I.
Qed.
Lemma flat_len (p : Z) l : (forall x, In x l -> length (put p x) = 12%nat) -> length (flat_map (put p) l) = (12 * length l)%nat.
Proof.
  induction l as [|x l IH]; intros H; [reflexivity|]. cbn [flat_map length]. rewrite app_length, (H x (or_introl eq_refl)), IH; [lia|].
  intros y I. apply H. right. exact I.
Qed.
Lemma array_cells p q : 1 <= p <= 6 -> (forall x, In x q -> ordinary x) ->
  length (write_JntArray p q) = (2 + 12 * length q)%nat /\
  forall i, (i < length q)%nat -> cell p (nth i q 0%R) (window (1 + 12 * i) 12 (write_JntArray p q)).
Proof.
  intros P O. assert (W : forall x, In x q -> length (put p x) = 12%nat) by (intros x I; apply put_len; auto). split.
  - unfold write_JntArray. rewrite !app_length, flat_len by auto. cbn [length lit list_ascii_of_string]. lia.
  - intros i L. unfold write_JntArray. change (lit "[") with ["["]. unfold window. cbn [app plus skipn].
    fold (window (12 * i) 12 (flat_map (put p) q ++ lit "]")). rewrite window_flat by auto. apply put_cell. lia.
Qed.
(** matrices *)
Lemma flat_map_map_seq (p : Z) (f : nat -> R) l : flat_map (fun j => put p (f j)) l = flat_map (put p) (map f l).
Proof. induction l as [|a l IH]; [reflexivity|]. cbn [flat_map map]. rewrite IH. reflexivity. Qed.
Lemma rows_window p entry cols i j : forall rows r, (forall a b, (a < rows)%nat -> (b < cols)%nat -> length (put p (entry a b)) = 12%nat) ->
  (i < rows)%nat -> (j < cols)%nat ->
  window (i * (12 * cols + 1) + 12 * j) 12 (write_rows p rows cols entry ++ r) = put p (entry i j).
Proof.
  intros rows r H I J. unfold write_rows.
  assert (G : forall k n s, (forall a b, (n <= a < n + k)%nat -> (b < cols)%nat -> length (put p (entry a b)) = 12%nat) -> (n <= s < n + k)%nat ->
    window ((s - n) * (12 * cols + 1) + 12 * j) 12 (flat_map (fun i => flat_map (fun j => put p (entry i j)) (seq 0 cols) ++ [nl]) (seq n k) ++ r) = put p (entry s j)).
  { clear rows H I i. induction k as [|k IH]; intros n s H Sn; [lia|]. cbn [seq flat_map].
    assert (Rl : length (flat_map (fun j => put p (entry n j)) (seq 0 cols)) = (12 * cols)%nat).
    { rewrite flat_map_map_seq, flat_len, map_length, seq_length; [reflexivity|]. intros x Ix. apply in_map_iff in Ix. destruct Ix as (b & <- & Ib).
      apply in_seq in Ib. apply H; lia. }
    destruct (Nat.eq_dec s n) as [->|Ne].
    - rewrite Nat.sub_diag, Nat.mul_0_l, Nat.add_0_l. rewrite <- !app_assoc. rewrite flat_map_map_seq, window_flat.
      + rewrite (nth_indep _ 0%R (entry n cols)), map_nth, seq_nth; [reflexivity|exact J|rewrite map_length, seq_length; exact J].
      + intros x Ix. apply in_map_iff in Ix. destruct Ix as (b & <- & Ib). apply in_seq in Ib. apply H; lia.
      + rewrite map_length, seq_length. exact J.
    - rewrite <- (IH (S n) s); [|intros a b Ha Hb; apply H; lia|lia]. unfold window. f_equal. rewrite <- !app_assoc.
      assert (Ee : ((s - n) * (12 * cols + 1) + 12 * j = 12 * cols + S ((s - S n) * (12 * cols + 1) + 12 * j))%nat).
      { replace (s - n)%nat with (S (s - S n)) by lia. rewrite Nat.mul_succ_l. lia. }
      rewrite Ee. rewrite skipn_app, Rl. rewrite (skipn_all2 (flat_map (fun j0 => put p (entry n j0)) (seq 0 cols))) by (rewrite Rl; apply Nat.le_add_r). cbn [app].
      replace (12 * cols + S ((s - S n) * (12 * cols + 1) + 12 * j) - 12 * cols)%nat with (S ((s - S n) * (12 * cols + 1) + 12 * j)) by (symmetry; apply Nat.add_sub_eq_l; reflexivity). reflexivity. }
  specialize (G rows 0%nat i). rewrite Nat.sub_0_r in G. apply G; [|lia]. intros a b Ha Hb. apply H; lia.
Qed.
Lemma rows_len p entry cols rows : (forall a b, (a < rows)%nat -> (b < cols)%nat -> length (put p (entry a b)) = 12%nat) ->
  length (write_rows p rows cols entry) = (rows * (12 * cols + 1))%nat.
Proof.
  intros H. unfold write_rows.
  assert (G : forall k n, (forall a b, (n <= a < n + k)%nat -> (b < cols)%nat -> length (put p (entry a b)) = 12%nat) ->
    length (flat_map (fun i => flat_map (fun j => put p (entry i j)) (seq 0 cols) ++ [nl]) (seq n k)) = (k * (12 * cols + 1))%nat).
  { induction k as [|k IH]; intros n Hk; [reflexivity|]. cbn [seq flat_map]. rewrite !app_length, IH by (intros a b Ha Hb; apply Hk; lia).
    rewrite flat_map_map_seq, flat_len, map_length, seq_length; [cbn [length]; lia|]. intros x Ix. apply in_map_iff in Ix. destruct Ix as (b & <- & Ib).
    apply in_seq in Ib. apply Hk; lia. }
  apply G. intros a b Ha Hb. apply H; lia.
Qed.
Lemma jac_entry_row J i j : (i < 6)%nat -> jac_entry J i j = jacobian_row i (nth j J t_zero).
Proof. intros H. do 6 (destruct i as [|i]; [reflexivity|]). lia. Qed.
Lemma jacobian_cells p J : 1 <= p <= 6 -> (forall i j, (i < 6)%nat -> (j < length J)%nat -> ordinary (jacobian_row i (nth j J t_zero))) ->
  length (write_Jacobian p J) = (2 + 6 * (12 * length J + 1))%nat /\
  forall i j, (i < 6)%nat -> (j < length J)%nat ->
    cell p (jacobian_row i (nth j J t_zero)) (window (1 + i * (12 * length J + 1) + 12 * j) 12 (write_Jacobian p J)).
Proof.
  intros P O'. assert (O : forall i j, (i < 6)%nat -> (j < length J)%nat -> ordinary (jac_entry J i j)) by (intros; rewrite jac_entry_row; auto). assert (W : forall a b, (a < 6)%nat -> (b < length J)%nat -> length (put p (jac_entry J a b)) = 12%nat) by (intros; apply put_len; auto).
  split.
  - unfold write_Jacobian. rewrite !app_length, rows_len by auto. cbn [length lit list_ascii_of_string]. lia.
  - intros i j I Hj. unfold write_Jacobian. change (lit "[") with ["["]. unfold window. cbn [app plus skipn].
    fold (window (i * (12 * length J + 1) + 12 * j) 12 (write_rows p 6 (length J) (jac_entry J) ++ lit "]")). rewrite rows_window by auto.
    rewrite <- jac_entry_row by exact I. apply put_cell. lia.
Qed.
Lemma inertia_cells p m : 1 <= p <= 6 -> length (jm_d m) = (jm_n m * jm_n m)%nat -> (forall x, In x (jm_d m) -> ordinary x) ->
  length (write_JntSpaceInertiaMatrix p m) = (2 + jm_n m * (12 * jm_n m + 1))%nat /\
  forall i j x, jm_get m i j = Ret x ->
    cell p x (window (1 + i * (12 * jm_n m + 1) + 12 * j) 12 (write_JntSpaceInertiaMatrix p m)).
Proof.
  intros P L O. set (n := jm_n m) in *.
  assert (R : forall a b, (a < n)%nat -> (b < n)%nat -> (b * n + a < n * n)%nat) by (intros; nia).
  assert (W : forall a b, (a < n)%nat -> (b < n)%nat -> length (put p (nth (b * n + a) (jm_d m) 0%R)) = 12%nat).
  { intros a b Ha Hb. apply put_len; auto. apply O. apply nth_In. rewrite L. auto. }
  split.
  - unfold write_JntSpaceInertiaMatrix. fold n. rewrite !app_length, (rows_len p (fun i j => nth (j * n + i) (jm_d m) 0%R)) by auto.
    cbn [length lit list_ascii_of_string]. lia.
  - intros i j x G. unfold jm_get in G. fold n in G. destruct (Nat.ltb_spec i n) as [I|I]; [|discriminate G].
    destruct (Nat.ltb_spec j n) as [Hj|Hj]; [|discriminate G]. cbn [andb] in G. unfold aget in G.
    destruct (nth_error (jm_d m) (j * n + i)) as [y|] eqn:E; [|discriminate G]. injection G as ->.
    apply nth_error_nth with (d := 0%R) in E.
    unfold write_JntSpaceInertiaMatrix. fold n. change (lit "[") with ["["]. unfold window. cbn [app plus skipn].
    fold (window (i * (12 * n + 1) + 12 * j) 12 (write_rows p n n (fun i j => nth (j * n + i) (jm_d m) 0%R) ++ lit "]")).
    rewrite rows_window by auto. rewrite E. apply put_cell. lia.
Qed.
(** with cells of equal width the text determines the numbers *)
Lemma put_agree p x y : 1 <= p -> put p x = put p y -> agree p x y.
Proof.
  intros P E. assert (V : write_Vector p (mkV x x x) ++ [] = write_Vector p (mkV y y y) ++ []).
  { unfold write_Vector. cbn [vx vy vz]. rewrite E. reflexivity. }
  apply vector_inj in V; auto. destruct V as [V _]. inversion V. assumption.
Qed.
Lemma flat_inj p l1 : forall l2 r, 1 <= p -> (forall x, In x l1 \/ In x l2 -> length (put p x) = 12%nat) -> length l1 = length l2 ->
  flat_map (put p) l1 ++ r = flat_map (put p) l2 ++ r -> Forall2 (agree p) l1 l2.
Proof.
  induction l1 as [|x l1 IH]; intros [|y l2] r P H L E; try discriminate L; constructor; cbn [flat_map] in E; rewrite <- !app_assoc in E.
  - assert (F := f_equal (firstn 12) E). rewrite !firstn_app in F. rewrite (H x), (H y) in F by (cbn; auto). rewrite Nat.sub_diag, !firstn_O, !app_nil_r in F.
    rewrite <- (H x) in F at 1 by (cbn; auto). rewrite <- (H y) in F at 1 by (cbn; auto). rewrite !firstn_all in F. apply put_agree; auto.
  - assert (F := f_equal (skipn 12) E). rewrite !skipn_app in F. 
    rewrite (skipn_all2 (put p x)) in F by (rewrite (H x) by (cbn; auto); lia). rewrite (skipn_all2 (put p y)) in F by (rewrite (H y) by (cbn; auto); lia).
    rewrite (H x), (H y) in F by (cbn; auto). rewrite Nat.sub_diag in F. cbn [app skipn] in F. injection L as L. apply (IH l2 r); auto. intros z [I|I]; apply H; cbn; auto.
Qed.
Lemma array_inj p q1 q2 : 1 <= p <= 6 -> (forall x, In x (q1 ++ q2) -> ordinary x) -> write_JntArray p q1 = write_JntArray p q2 ->
  Forall2 (agree p) q1 q2.
Proof.
  intros P O E. assert (W : forall x, In x q1 \/ In x q2 -> length (put p x) = 12%nat).
  { intros x I. apply put_len; auto. apply O. apply in_or_app. exact I. }
  assert (L : length q1 = length q2).
  { assert (F := f_equal (@length ascii) E). unfold write_JntArray in F. rewrite !app_length, !flat_len in F by (intros; apply W; auto). lia. }
  unfold write_JntArray in E. apply app_inv_head in E. eapply flat_inj; eauto. lia.
Qed.
