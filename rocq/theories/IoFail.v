(** What a failed read leaves in the object: the members read so far, and the old ones. *)
From Coq Require Import Reals ZArith Ascii String List Bool Lia.
From Flocq Require Import Core.
From Verif Require Import FramesModel PathModel IoModel IoSpec IoNum IoEat IoObjects IoTotal IoFailSpec.
Import ListNotations.
Local Open Scope char_scope.
Local Open Scope list_scope.
Local Open Scope Z_scope.

Lemma skipn_twice : forall (A : Type) (l : list A) m n, skipn m (skipn n l) = skipn (n + m) l.
Proof. induction l as [|a l IH]; intros m n; [rewrite !skipn_nil; reflexivity|]. destruct n; [reflexivity|]. cbn. apply IH. Qed.

Section From.
Context {A : Type} (co : A -> list R).
Definition starts (l0 : list R) (v : A) : Prop := co v = l0 ++ skipn (length l0) (co v).
Definition from (l0 : list R) (F : A -> oio A) : Prop :=
  (exists s l, forall v, starts l0 v -> exists x, F v = OGot x s /\ co x = l) \/
  (exists e s l, forall v, starts l0 v -> exists x, F v = OThrew e x s /\ co x = l ++ skipn (length l) (co v)) \/
  (forall v, starts l0 v -> F v = OUb) \/ (forall v, starts l0 v -> F v = OHang).
Lemma starts_nil : forall v, starts [] v.
Proof. reflexivity. Qed.
Lemma fills_from : forall F, from [] F -> fills co F.
Proof.
  intros F [(s & l & H)|[(e & s & l & H)|[H|H]]].
  - left. exists s, l. intro v. apply H, starts_nil.
  - right; left. exists e, s, l. intro v. apply H, starts_nil.
  - right; right; left. intro v. apply H, starts_nil.
  - right; right; right. intro v. apply H, starts_nil.
Qed.
Lemma from_fills : forall F, fills co F -> from [] F.
Proof.
  intros F [(s & l & H)|[(e & s & l & H)|[H|H]]].
  - left. exists s, l. intros v _. apply H.
  - right; left. exists e, s, l. intros v _. apply H.
  - right; right; left. intros v _. apply H.
  - right; right; right. intros v _. apply H.
Qed.
Lemma from_ext : forall l0 F G, (forall v, starts l0 v -> F v = G v) -> from l0 G -> from l0 F.
Proof.
  intros l0 F G E [(s & l & H)|[(e & s & l & H)|[H|H]]].
  - left. exists s, l. intros v S0. rewrite E by exact S0. apply H, S0.
  - right; left. exists e, s, l. intros v S0. rewrite E by exact S0. apply H, S0.
  - right; right; left. intros v S0. rewrite E by exact S0. apply H, S0.
  - right; right; right. intros v S0. rewrite E by exact S0. apply H, S0.
Qed.
Lemma from_lift : forall B (m : io B) l0 G, (forall b s, from l0 (fun v => G v b s)) -> from l0 (fun v => lift m v (fun b s => G v b s)).
Proof.
  intros B [b s|e s| |] l0 G H; cbn [lift].
  - apply H.
  - right; left. exists e, s, l0. intros v S0. exists v. split; [reflexivity | exact S0].
  - right; right; left. reflexivity.
  - right; right; right. reflexivity.
Qed.
Lemma from_if : forall (b : bool) l0 F G, from l0 F -> from l0 G -> from l0 (fun v => if b then F v else G v).
Proof. intros [|] l0 F G HF HG; assumption. Qed.
Lemma from_throw : forall e s l0, from l0 (fun v => OThrew e v s).
Proof. intros e s l0. right; left. exists e, s, l0. intros v S0. exists v. split; [reflexivity | exact S0]. Qed.
Lemma from_done : forall s l0 , (forall v, starts l0 v -> co v = l0) -> from l0 (fun v => done v s).
Proof.
  intros s l0 H. unfold done, IOTracePop. destruct (is_trace s) as [|d t]; cbn [lift].
  - right; right; left. reflexivity.
  - left. eexists _, l0. intros v S0. exists v. split; [reflexivity | apply H, S0].
Qed.
Lemma from_const : forall s x l0, from l0 (fun _ => done x s).
Proof.
  intros s x l0. unfold done, IOTracePop. destruct (is_trace s) as [|d t]; cbn [lift].
  - right; right; left. reflexivity.
  - left. eexists _, (co x). intros v S0. exists x. split; reflexivity.
Qed.

Definition stops (E : istr -> io unit) : Prop := forall s, good s = false -> exists e s', E s = Threw e s'.
Lemma num_old : forall rd s, (exists x s', forall old, read_double rd s old = (x, s')) \/
  (exists s', good s' = false /\ forall old, read_double rd s old = (old, s')).
Proof.
  intros rd s. unfold read_double, extract. destruct (good s) eqn:G.
  - destruct (span is_space (is_rest s)) as [ws t]. destruct t as [|c t].
    + right. eexists. split; [|reflexivity]. reflexivity.
    + left. destruct (num_float (c :: t)) as [[tok r] [v|]]; eexists _, _; reflexivity.
  - right. exists (set_fail s). split; [|reflexivity]. unfold good, set_fail. cbn. rewrite orb_true_r. reflexivity.
Qed.
Lemma from_num : forall rd s l0 (get : A -> R) (set : A -> R -> A) (E : istr -> io unit) (G : A -> istr -> oio A),
  (forall v x, starts l0 v -> co (set v x) = (l0 ++ [x]) ++ skipn (length (l0 ++ [x])) (co v)) ->
  (forall v x, starts l0 v -> length (co (set v x)) = length (co v)) ->
  (forall v, set v (get v) = v) -> stops E ->
  (forall x s, from (l0 ++ [x]) (fun v => G v s)) ->
  from l0 (fun v => let (x, s) := read_double rd s (get v) in let v := set v x in lift (E s) v (fun _ s => G v s)).
Proof.
  intros rd s l0 get set E G H1 H2 H3 HE HG.
  destruct (num_old rd s) as [(x & s' & N)|(s' & B & N)].
  - apply from_ext with (G := fun v => lift (E s') (set v x) (fun _ s => G (set v x) s)).
    { intros v _. rewrite N. reflexivity. }
    assert (K : forall v, starts l0 v -> starts (l0 ++ [x]) (set v x)).
    { intros v S0. unfold starts. rewrite (H1 v x S0) at 1 2. f_equal.
      rewrite skipn_app, skipn_all, Nat.sub_diag. reflexivity. }
    assert (K2 : forall v l t, starts l0 v -> t = l ++ skipn (length l) (co (set v x)) -> (length (l0 ++ [x]) <= length l)%nat ->
      t = l ++ skipn (length l) (co v)).
    { intros v l t S0 -> L. f_equal. rewrite (H1 v x S0), skipn_app.
      rewrite skipn_all2 by exact L. cbn [app]. rewrite skipn_twice. f_equal. lia. }
    destruct (E s') as [u s2|e s2| |]; cbn [lift].
    + destruct (HG x s2) as [(s3 & l & H)|[(e & s3 & l & H)|[H|H]]].
      * left. exists s3, l. intros v S0. apply H, K, S0.
      * right; left. destruct (le_lt_dec (length (l0 ++ [x])) (length l)) as [L|L].
        -- exists e, s3, l. intros v S0. destruct (H (set v x) (K v S0)) as (y & Y1 & Y2). exists y. split; [exact Y1|].
           apply (K2 v l _ S0 Y2 L).
        -- exists e, s3, (l ++ skipn (length l) (l0 ++ [x])). intros v S0. destruct (H (set v x) (K v S0)) as (y & Y1 & Y2).
           exists y. split; [exact Y1|]. rewrite Y2, (H1 v x S0), skipn_app.
           replace (length l - length (l0 ++ [x]))%nat with 0%nat by lia. cbn [skipn]. rewrite app_assoc. f_equal.
           f_equal. rewrite (app_length l), skipn_length. lia.
      * right; right; left. intros v S0. apply H, K, S0.
      * right; right; right. intros v S0. apply H, K, S0.
    + right; left. exists e, s2, (l0 ++ [x]). intros v S0. exists (set v x). split; [reflexivity | apply H1, S0].
    + right; right; left. reflexivity.
    + right; right; right. reflexivity.
  - destruct (HE s' B) as (e & s2 & T). right; left. exists e, s2, l0. intros v S0. exists v. rewrite N. cbv zeta. rewrite H3, T.
    split; [reflexivity | exact S0].
Qed.
End From.

Lemma Eat_stops : forall d, stops (fun s => Eat s d).
Proof.
  intros d s G. unfold Eat. destruct (is_eof s) eqn:E.
  - rewrite EatSpace_eof by assumption. cbn. eauto.
  - rewrite (proj1 (EatSpace_dead s (conj G E))). cbn. eauto.
Qed.
Lemma EatEnd_stops : forall d, stops (fun s => EatEnd s d).
Proof.
  intros d s G. unfold EatEnd. destruct (is_eof s) eqn:E.
  - rewrite EatSpace_eof by assumption. cbn. eauto.
  - rewrite (proj1 (EatSpace_dead s (conj G E))). cbn. eauto.
Qed.

Ltac dv := repeat match goal with
  | u : Vector |- _ => destruct u | u : Rotation |- _ => destruct u | u : Vector2 |- _ => destruct u
  | u : Twist |- _ => destruct u | u : Wrench |- _ => destruct u end.
Ltac mem := intros; dv; cbn in *; reflexivity.
Ltac st S0 := unfold starts in S0; dv; cbn in *; injection S0; intros; subst; reflexivity.

Section Rd.
Variable rd : R -> R.
Definition kV22 (v : Vector2) (s : istr) : oio Vector2 := done v s.
Definition kV21 (v : Vector2) (s : istr) : oio Vector2 :=
  let (x, s) := read_double rd s (v2y v) in let v := mkV2 (v2x v) x in lift (EatEnd s "]") v (fun _ s => kV22 v s).
Definition kV20 (v : Vector2) (s : istr) : oio Vector2 :=
  let (x, s) := read_double rd s (v2x v) in let v := mkV2 x (v2y v) in lift (Eat s ",") v (fun _ s => kV21 v s).
Lemma from_V2 : forall s, from numbers_Vector2 [] (fun v => kV20 v s).
Proof.
  intro s0.
  apply (from_num numbers_Vector2 rd s0 [] (fun v => v2x v) (fun v x => mkV2 x (v2y v)) (fun s => Eat s ",") kV21); try mem; [apply Eat_stops | intros x0 s1; cbn [app]].
  apply (from_num numbers_Vector2 rd s1 [x0] (fun v => v2y v) (fun v x => mkV2 (v2x v) x) (fun s => EatEnd s "]") kV22); try mem; [intros v y S0; st S0 | apply EatEnd_stops | intros x1 s2; cbn [app]].
  apply from_done. intros v S0. st S0.
Qed.
Lemma fills_Vector2 : forall s, fills numbers_Vector2 (read_Vector2 rd s).
Proof. intro s. apply fills_from. unfold read_Vector2. cbv zeta. apply from_lift. intros _ s1. exact (from_V2 s1). Qed.
Definition kV3 (v : Vector) (s : istr) : oio Vector := done v s.
Definition kV2 (v : Vector) (s : istr) : oio Vector :=
  let (x, s) := read_double rd s (vz v) in let v := mkV (vx v) (vy v) x in lift (EatEnd s "]") v (fun _ s => kV3 v s).
Definition kV1 (v : Vector) (s : istr) : oio Vector :=
  let (x, s) := read_double rd s (vy v) in let v := mkV (vx v) x (vz v) in lift (Eat s ",") v (fun _ s => kV2 v s).
Definition kV0 (v : Vector) (s : istr) : oio Vector :=
  let (x, s) := read_double rd s (vx v) in let v := mkV x (vy v) (vz v) in lift (Eat s ",") v (fun _ s => kV1 v s).
Lemma from_V : forall s, from numbers_Vector [] (fun v => kV0 v s).
Proof.
  intro s0.
  apply (from_num numbers_Vector rd s0 [] (fun v => vx v) (fun v x => mkV x (vy v) (vz v)) (fun s => Eat s ",") kV1); try mem; [apply Eat_stops | intros x0 s1; cbn [app]].
  apply (from_num numbers_Vector rd s1 [x0] (fun v => vy v) (fun v x => mkV (vx v) x (vz v)) (fun s => Eat s ",") kV2); try mem; [intros v y S0; st S0 | apply Eat_stops | intros x1 s2; cbn [app]].
  apply (from_num numbers_Vector rd s2 [x0; x1] (fun v => vz v) (fun v x => mkV (vx v) (vy v) x) (fun s => EatEnd s "]") kV3); try mem; [intros v y S0; st S0 | apply EatEnd_stops | intros x2 s3; cbn [app]].
  apply from_done. intros v S0. st S0.
Qed.
Lemma fills_Vector : forall s, fills numbers_Vector (read_Vector rd s).
Proof.
  intro s. apply fills_from. unfold read_Vector. cbv zeta. apply from_lift. intros w s1. apply from_if.
  - apply from_lift. intros _ s2. exact (from_V s2).
  - apply from_if; [apply from_const | apply from_throw].
Qed.
Definition kT6 (v : Twist) (s : istr) : oio Twist := done v s.
Definition kT5 (v : Twist) (s : istr) : oio Twist :=
  let (x, s) := read_double rd s (vz (trot v)) in let v := mkT (tvel v) (mkV (vx (trot v)) (vy (trot v)) x) in lift (EatEnd s "]") v (fun _ s => kT6 v s).
Definition kT4 (v : Twist) (s : istr) : oio Twist :=
  let (x, s) := read_double rd s (vy (trot v)) in let v := mkT (tvel v) (mkV (vx (trot v)) x (vz (trot v))) in lift (Eat s ",") v (fun _ s => kT5 v s).
Definition kT3 (v : Twist) (s : istr) : oio Twist :=
  let (x, s) := read_double rd s (vx (trot v)) in let v := mkT (tvel v) (mkV x (vy (trot v)) (vz (trot v))) in lift (Eat s ",") v (fun _ s => kT4 v s).
Definition kT2 (v : Twist) (s : istr) : oio Twist :=
  let (x, s) := read_double rd s (vz (tvel v)) in let v := mkT (mkV (vx (tvel v)) (vy (tvel v)) x) (trot v) in lift (Eat s ",") v (fun _ s => kT3 v s).
Definition kT1 (v : Twist) (s : istr) : oio Twist :=
  let (x, s) := read_double rd s (vy (tvel v)) in let v := mkT (mkV (vx (tvel v)) x (vz (tvel v))) (trot v) in lift (Eat s ",") v (fun _ s => kT2 v s).
Definition kT0 (v : Twist) (s : istr) : oio Twist :=
  let (x, s) := read_double rd s (vx (tvel v)) in let v := mkT (mkV x (vy (tvel v)) (vz (tvel v))) (trot v) in lift (Eat s ",") v (fun _ s => kT1 v s).
Lemma from_T : forall s, from numbers_Twist [] (fun v => kT0 v s).
Proof.
  intro s0.
  apply (from_num numbers_Twist rd s0 [] (fun v => vx (tvel v)) (fun v x => mkT (mkV x (vy (tvel v)) (vz (tvel v))) (trot v)) (fun s => Eat s ",") kT1); try mem; [apply Eat_stops | intros x0 s1; cbn [app]].
  apply (from_num numbers_Twist rd s1 [x0] (fun v => vy (tvel v)) (fun v x => mkT (mkV (vx (tvel v)) x (vz (tvel v))) (trot v)) (fun s => Eat s ",") kT2); try mem; [intros v y S0; st S0 | apply Eat_stops | intros x1 s2; cbn [app]].
  apply (from_num numbers_Twist rd s2 [x0; x1] (fun v => vz (tvel v)) (fun v x => mkT (mkV (vx (tvel v)) (vy (tvel v)) x) (trot v)) (fun s => Eat s ",") kT3); try mem; [intros v y S0; st S0 | apply Eat_stops | intros x2 s3; cbn [app]].
  apply (from_num numbers_Twist rd s3 [x0; x1; x2] (fun v => vx (trot v)) (fun v x => mkT (tvel v) (mkV x (vy (trot v)) (vz (trot v)))) (fun s => Eat s ",") kT4); try mem; [intros v y S0; st S0 | apply Eat_stops | intros x3 s4; cbn [app]].
  apply (from_num numbers_Twist rd s4 [x0; x1; x2; x3] (fun v => vy (trot v)) (fun v x => mkT (tvel v) (mkV (vx (trot v)) x (vz (trot v)))) (fun s => Eat s ",") kT5); try mem; [intros v y S0; st S0 | apply Eat_stops | intros x4 s5; cbn [app]].
  apply (from_num numbers_Twist rd s5 [x0; x1; x2; x3; x4] (fun v => vz (trot v)) (fun v x => mkT (tvel v) (mkV (vx (trot v)) (vy (trot v)) x)) (fun s => EatEnd s "]") kT6); try mem; [intros v y S0; st S0 | apply EatEnd_stops | intros x5 s6; cbn [app]].
  apply from_done. intros v S0. st S0.
Qed.
Lemma fills_Twist : forall s, fills numbers_Twist (read_Twist rd s).
Proof. intro s. apply fills_from. unfold read_Twist. cbv zeta. apply from_lift. intros _ s1. exact (from_T s1). Qed.
Definition kW6 (v : Wrench) (s : istr) : oio Wrench := done v s.
Definition kW5 (v : Wrench) (s : istr) : oio Wrench :=
  let (x, s) := read_double rd s (vz (wtorque v)) in let v := mkW (wforce v) (mkV (vx (wtorque v)) (vy (wtorque v)) x) in lift (EatEnd s "]") v (fun _ s => kW6 v s).
Definition kW4 (v : Wrench) (s : istr) : oio Wrench :=
  let (x, s) := read_double rd s (vy (wtorque v)) in let v := mkW (wforce v) (mkV (vx (wtorque v)) x (vz (wtorque v))) in lift (Eat s ",") v (fun _ s => kW5 v s).
Definition kW3 (v : Wrench) (s : istr) : oio Wrench :=
  let (x, s) := read_double rd s (vx (wtorque v)) in let v := mkW (wforce v) (mkV x (vy (wtorque v)) (vz (wtorque v))) in lift (Eat s ",") v (fun _ s => kW4 v s).
Definition kW2 (v : Wrench) (s : istr) : oio Wrench :=
  let (x, s) := read_double rd s (vz (wforce v)) in let v := mkW (mkV (vx (wforce v)) (vy (wforce v)) x) (wtorque v) in lift (Eat s ",") v (fun _ s => kW3 v s).
Definition kW1 (v : Wrench) (s : istr) : oio Wrench :=
  let (x, s) := read_double rd s (vy (wforce v)) in let v := mkW (mkV (vx (wforce v)) x (vz (wforce v))) (wtorque v) in lift (Eat s ",") v (fun _ s => kW2 v s).
Definition kW0 (v : Wrench) (s : istr) : oio Wrench :=
  let (x, s) := read_double rd s (vx (wforce v)) in let v := mkW (mkV x (vy (wforce v)) (vz (wforce v))) (wtorque v) in lift (Eat s ",") v (fun _ s => kW1 v s).
Lemma from_W : forall s, from numbers_Wrench [] (fun v => kW0 v s).
Proof.
  intro s0.
  apply (from_num numbers_Wrench rd s0 [] (fun v => vx (wforce v)) (fun v x => mkW (mkV x (vy (wforce v)) (vz (wforce v))) (wtorque v)) (fun s => Eat s ",") kW1); try mem; [apply Eat_stops | intros x0 s1; cbn [app]].
  apply (from_num numbers_Wrench rd s1 [x0] (fun v => vy (wforce v)) (fun v x => mkW (mkV (vx (wforce v)) x (vz (wforce v))) (wtorque v)) (fun s => Eat s ",") kW2); try mem; [intros v y S0; st S0 | apply Eat_stops | intros x1 s2; cbn [app]].
  apply (from_num numbers_Wrench rd s2 [x0; x1] (fun v => vz (wforce v)) (fun v x => mkW (mkV (vx (wforce v)) (vy (wforce v)) x) (wtorque v)) (fun s => Eat s ",") kW3); try mem; [intros v y S0; st S0 | apply Eat_stops | intros x2 s3; cbn [app]].
  apply (from_num numbers_Wrench rd s3 [x0; x1; x2] (fun v => vx (wtorque v)) (fun v x => mkW (wforce v) (mkV x (vy (wtorque v)) (vz (wtorque v)))) (fun s => Eat s ",") kW4); try mem; [intros v y S0; st S0 | apply Eat_stops | intros x3 s4; cbn [app]].
  apply (from_num numbers_Wrench rd s4 [x0; x1; x2; x3] (fun v => vy (wtorque v)) (fun v x => mkW (wforce v) (mkV (vx (wtorque v)) x (vz (wtorque v)))) (fun s => Eat s ",") kW5); try mem; [intros v y S0; st S0 | apply Eat_stops | intros x4 s5; cbn [app]].
  apply (from_num numbers_Wrench rd s5 [x0; x1; x2; x3; x4] (fun v => vz (wtorque v)) (fun v x => mkW (wforce v) (mkV (vx (wtorque v)) (vy (wtorque v)) x)) (fun s => EatEnd s "]") kW6); try mem; [intros v y S0; st S0 | apply EatEnd_stops | intros x5 s6; cbn [app]].
  apply from_done. intros v S0. st S0.
Qed.
Lemma fills_Wrench : forall s, fills numbers_Wrench (read_Wrench rd s).
Proof. intro s. apply fills_from. unfold read_Wrench. cbv zeta. apply from_lift. intros _ s1. exact (from_W s1). Qed.
Definition kM9 (v : Rotation) (s : istr) : oio Rotation := done v s.
Definition kM8 (v : Rotation) (s : istr) : oio Rotation :=
  let (x, s) := read_double rd s (r8 v) in let v := mkR (r0 v) (r1 v) (r2 v) (r3 v) (r4 v) (r5 v) (r6 v) (r7 v) x in lift (EatEnd s "]") v (fun _ s => kM9 v s).
Definition kM7 (v : Rotation) (s : istr) : oio Rotation :=
  let (x, s) := read_double rd s (r7 v) in let v := mkR (r0 v) (r1 v) (r2 v) (r3 v) (r4 v) (r5 v) (r6 v) x (r8 v) in lift (Eat s ",") v (fun _ s => kM8 v s).
Definition kM6 (v : Rotation) (s : istr) : oio Rotation :=
  let (x, s) := read_double rd s (r6 v) in let v := mkR (r0 v) (r1 v) (r2 v) (r3 v) (r4 v) (r5 v) x (r7 v) (r8 v) in lift (Eat s ",") v (fun _ s => kM7 v s).
Definition kM5 (v : Rotation) (s : istr) : oio Rotation :=
  let (x, s) := read_double rd s (r5 v) in let v := mkR (r0 v) (r1 v) (r2 v) (r3 v) (r4 v) x (r6 v) (r7 v) (r8 v) in lift (Eat s ";") v (fun _ s => kM6 v s).
Definition kM4 (v : Rotation) (s : istr) : oio Rotation :=
  let (x, s) := read_double rd s (r4 v) in let v := mkR (r0 v) (r1 v) (r2 v) (r3 v) x (r5 v) (r6 v) (r7 v) (r8 v) in lift (Eat s ",") v (fun _ s => kM5 v s).
Definition kM3 (v : Rotation) (s : istr) : oio Rotation :=
  let (x, s) := read_double rd s (r3 v) in let v := mkR (r0 v) (r1 v) (r2 v) x (r4 v) (r5 v) (r6 v) (r7 v) (r8 v) in lift (Eat s ",") v (fun _ s => kM4 v s).
Definition kM2 (v : Rotation) (s : istr) : oio Rotation :=
  let (x, s) := read_double rd s (r2 v) in let v := mkR (r0 v) (r1 v) x (r3 v) (r4 v) (r5 v) (r6 v) (r7 v) (r8 v) in lift (Eat s ";") v (fun _ s => kM3 v s).
Definition kM1 (v : Rotation) (s : istr) : oio Rotation :=
  let (x, s) := read_double rd s (r1 v) in let v := mkR (r0 v) x (r2 v) (r3 v) (r4 v) (r5 v) (r6 v) (r7 v) (r8 v) in lift (Eat s ",") v (fun _ s => kM2 v s).
Definition kM0 (v : Rotation) (s : istr) : oio Rotation :=
  let (x, s) := read_double rd s (r0 v) in let v := mkR x (r1 v) (r2 v) (r3 v) (r4 v) (r5 v) (r6 v) (r7 v) (r8 v) in lift (Eat s ",") v (fun _ s => kM1 v s).
Lemma from_M : forall s, from numbers_Rotation [] (fun v => kM0 v s).
Proof.
  intro s0.
  apply (from_num numbers_Rotation rd s0 [] (fun v => r0 v) (fun v x => mkR x (r1 v) (r2 v) (r3 v) (r4 v) (r5 v) (r6 v) (r7 v) (r8 v)) (fun s => Eat s ",") kM1); try mem; [apply Eat_stops | intros x0 s1; cbn [app]].
  apply (from_num numbers_Rotation rd s1 [x0] (fun v => r1 v) (fun v x => mkR (r0 v) x (r2 v) (r3 v) (r4 v) (r5 v) (r6 v) (r7 v) (r8 v)) (fun s => Eat s ",") kM2); try mem; [intros v y S0; st S0 | apply Eat_stops | intros x1 s2; cbn [app]].
  apply (from_num numbers_Rotation rd s2 [x0; x1] (fun v => r2 v) (fun v x => mkR (r0 v) (r1 v) x (r3 v) (r4 v) (r5 v) (r6 v) (r7 v) (r8 v)) (fun s => Eat s ";") kM3); try mem; [intros v y S0; st S0 | apply Eat_stops | intros x2 s3; cbn [app]].
  apply (from_num numbers_Rotation rd s3 [x0; x1; x2] (fun v => r3 v) (fun v x => mkR (r0 v) (r1 v) (r2 v) x (r4 v) (r5 v) (r6 v) (r7 v) (r8 v)) (fun s => Eat s ",") kM4); try mem; [intros v y S0; st S0 | apply Eat_stops | intros x3 s4; cbn [app]].
  apply (from_num numbers_Rotation rd s4 [x0; x1; x2; x3] (fun v => r4 v) (fun v x => mkR (r0 v) (r1 v) (r2 v) (r3 v) x (r5 v) (r6 v) (r7 v) (r8 v)) (fun s => Eat s ",") kM5); try mem; [intros v y S0; st S0 | apply Eat_stops | intros x4 s5; cbn [app]].
  apply (from_num numbers_Rotation rd s5 [x0; x1; x2; x3; x4] (fun v => r5 v) (fun v x => mkR (r0 v) (r1 v) (r2 v) (r3 v) (r4 v) x (r6 v) (r7 v) (r8 v)) (fun s => Eat s ";") kM6); try mem; [intros v y S0; st S0 | apply Eat_stops | intros x5 s6; cbn [app]].
  apply (from_num numbers_Rotation rd s6 [x0; x1; x2; x3; x4; x5] (fun v => r6 v) (fun v x => mkR (r0 v) (r1 v) (r2 v) (r3 v) (r4 v) (r5 v) x (r7 v) (r8 v)) (fun s => Eat s ",") kM7); try mem; [intros v y S0; st S0 | apply Eat_stops | intros x6 s7; cbn [app]].
  apply (from_num numbers_Rotation rd s7 [x0; x1; x2; x3; x4; x5; x6] (fun v => r7 v) (fun v x => mkR (r0 v) (r1 v) (r2 v) (r3 v) (r4 v) (r5 v) (r6 v) x (r8 v)) (fun s => Eat s ",") kM8); try mem; [intros v y S0; st S0 | apply Eat_stops | intros x7 s8; cbn [app]].
  apply (from_num numbers_Rotation rd s8 [x0; x1; x2; x3; x4; x5; x6; x7] (fun v => r8 v) (fun v x => mkR (r0 v) (r1 v) (r2 v) (r3 v) (r4 v) (r5 v) (r6 v) (r7 v) x) (fun s => EatEnd s "]") kM9); try mem; [intros v y S0; st S0 | apply EatEnd_stops | intros x8 s9; cbn [app]].
  apply from_done. intros v S0. st S0.
Qed.
Lemma rows_kM : forall r s, read_row rd 0 s r (fun r s => read_row rd 1 s r (fun r s => read_row rd 2 s r (fun r s => done r s))) = kM0 r s.
Proof.
  intros [a b c d e f g h i] s. reflexivity.
Qed.
(** a local variable is read, the object is not touched *)
Lemma from_local : forall B C (co : C -> list R) (m : oio B) (G : C -> B -> istr -> oio C) l0, (forall b s, from co l0 (fun v => G v b s)) ->
  from co l0 (fun v => sub m (fun _ => v) (fun b s => G v b s)).
Proof.
  intros B C co [b s|e b s| |] G l0 H; cbn [sub].
  - apply H.
  - apply from_throw.
  - right; right; left. reflexivity.
  - right; right; right. reflexivity.
Qed.
(** a local number is read *)
Lemma from_number : forall C (co : C -> list R) (G : C -> R -> istr -> oio C) s l0, (forall x s, from co l0 (fun v => G v x s)) ->
  from co l0 (fun v => let (x, s) := read_double rd s 0%R in G v x s).
Proof. intros C co G s l0 H. destruct (read_double rd s 0) as [x s']. apply H. Qed.
Lemma fills_Rotation : forall s, fills numbers_Rotation (read_Rotation rd s).
Proof.
  intro s. apply fills_from. unfold read_Rotation. cbv zeta. apply from_lift. intros w s1. apply from_if.
  { apply from_lift. intros _ s2. eapply from_ext; [intros v _; apply rows_kM | apply from_M]. }
  apply from_if. { apply from_local. intros b s2. apply from_const. }
  apply from_if. { apply from_local. intros b s2. apply from_const. }
  apply from_if. { apply from_local. intros b s2. apply from_const. }
  apply from_if.
  { apply from_local. intros b s2. apply from_lift. intros _ s3. apply from_number. intros x s4. apply from_lift. intros _ s5. apply from_const. }
  apply from_if; [apply from_const | apply from_throw].
Qed.
Lemma numM_inj : forall a b, numbers_Rotation a = numbers_Rotation b -> a = b.
Proof. intros [] [] H. cbn in H. injection H; intros; subst; reflexivity. Qed.
Lemma numV_inj : forall a b, numbers_Vector a = numbers_Vector b -> a = b.
Proof. intros [] [] H. cbn in H. injection H; intros; subst; reflexivity. Qed.
Lemma fills_Frame : forall s, fills numbers_Frame (read_Frame rd s).
Proof.
  intro s. apply fills_from. unfold read_Frame. cbv zeta. apply from_lift. intros w s1. apply from_if.
  { apply from_lift. intros _ s2. destruct (fills_Rotation s2) as [(s3 & l & H)|[(e & s3 & l & H)|[H|H]]].
    - destruct (H r_id) as (m & Hm & Lm).
      assert (H' : forall r, read_Rotation rd s2 r = OGot m s3).
      { intro r. destruct (H r) as (m' & Hr & Lr). rewrite Hr. f_equal. apply numM_inj. congruence. }
      destruct (fills_Vector s3) as [(s4 & l' & K)|[(e & s4 & l' & K)|[K|K]]].
      + destruct (K v_zero) as (p & Hp & Lp).
        assert (K' : forall v, read_Vector rd s3 v = OGot p s4).
        { intro r. destruct (K r) as (p' & Kr & Lr). rewrite Kr. f_equal. apply numV_inj. congruence. }
        apply from_ext with (G := fun T => lift (EatEnd s4 "]") (mkF m p) (fun _ s => done (mkF m p) s)).
        { intros v _. rewrite H'. cbn [sub fp fM]. rewrite K'. reflexivity. }
        destruct (EatEnd s4 "]") as [u s5|e s5| |]; cbn [lift].
        * apply from_const.
        * right; left. exists e, s5, (numbers_Frame (mkF m p)). intros v _. exists (mkF m p). split; [reflexivity|].
          rewrite skipn_all2; [rewrite app_nil_r; reflexivity|]. destruct v as [[] []]. cbn. lia.
        * right; right; left. reflexivity.
        * right; right; right. reflexivity.
      + right; left. exists e, s4, (numbers_Rotation m ++ l'). intros v _. rewrite H'. cbn [sub fp fM].
        destruct (K (fp v)) as (p & Hp & Lp). rewrite Hp. cbn [sub]. eexists. split; [reflexivity|].
        unfold numbers_Frame at 1. cbn [fM fp]. rewrite Lp, <- app_assoc. do 2 f_equal.
      + right; right; left. intros v _. rewrite H'. cbn [sub]. rewrite K. reflexivity.
      + right; right; right. intros v _. rewrite H'. cbn [sub]. rewrite K. reflexivity.
    - right; left. destruct (le_lt_dec (length l) 9) as [L|L].
      + exists e, s3, l. intros v _. destruct (H (fM v)) as (m & Hm & Lm). rewrite Hm. cbn [sub]. eexists. split; [reflexivity|].
        unfold numbers_Frame. cbn [fM fp]. rewrite Lm, <- app_assoc. f_equal. rewrite skipn_app.
        f_equal. replace (length l - length (numbers_Rotation (fM v)))%nat with 0%nat by (cbn; lia). reflexivity.
      + exfalso. destruct (H r_id) as (m & Hm & Lm). apply (f_equal (@length R)) in Lm. rewrite app_length in Lm. cbn in Lm. lia.
    - right; right; left. intros v _. rewrite H. reflexivity.
    - right; right; right. intros v _. rewrite H. reflexivity. }
  apply from_if; [|apply from_throw].
  apply from_lift. intros _ s2. apply from_number. intros a s3. apply from_lift. intros _ s4. apply from_number. intros b s5.
  apply from_lift. intros _ s6. apply from_number. intros c s7. apply from_lift. intros _ s8. apply from_number. intros d s9.
  apply from_lift. intros _ s10. apply from_const.
Qed.
End Rd.
Lemma fills_all : forall rd s, fills numbers_Vector (read_Vector rd s) /\ fills numbers_Twist (read_Twist rd s) /\ fills numbers_Wrench (read_Wrench rd s) /\ fills numbers_Rotation (read_Rotation rd s) /\ fills numbers_Frame (read_Frame rd s) /\ fills numbers_Vector2 (read_Vector2 rd s).
Proof.
  intros rd s.
  exact (conj (fills_Vector rd s) (conj (fills_Twist rd s) (conj (fills_Wrench rd s) (conj (fills_Rotation rd s) (conj (fills_Frame rd s) (fills_Vector2 rd s)))))).
Qed.

(** Numbers that cannot be read are stored as zero. *)
Lemma malformed : forall rd c r past tr, is_space c = false ->
  (forall tok t, num_float (c :: r) = (tok, t, None) -> forall old, fst (read_double rd (stream past (c :: r) tr) old) = 0%R) /\ (forall tok t, num_int (c :: r) = (tok, t, None) -> forall old, fst (read_int (stream past (c :: r) tr) old) = 0) /\ (forall tok t, num_int (c :: r) = (tok, t, None) -> forall old, fst (read_bool (stream past (c :: r) tr) old) = false).
Proof.
  intros rd c r past tr H. unfold read_double, read_int, read_bool, extract.
  change (good (stream past (c :: r) tr)) with true. cbv iota. cbn [stream is_rest is_past is_trace span]. rewrite H.
  repeat split; intros tok t N old; rewrite N; reflexivity.
Qed.
