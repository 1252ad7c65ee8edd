(** What Write writes is a text of the plain form; reading it back. *)
From Coq Require Import Reals ZArith Ascii String List Bool Lia Lra.
From Flocq Require Import Core.
From Verif Require Import FramesModel Outcome ProfModel PathModel PathSpec PathProofs PathProofs4 IoModel IoSpec IoNum IoEat IoObjects IoComplete IoFinal IoRound MioModel MioSpec MioComplete.
Import ListNotations.
Local Open Scope char_scope.
Local Open Scope list_scope.
Local Open Scope Z_scope.

Lemma integer_fmt z : integer (fmt_int z) z.
Proof.
  unfold fmt_int. destruct (Z.ltb_spec z 0) as [L|L].
  - destruct (fmt_nat_spec (- z) ltac:(lia)) as (A & B & C). exists ["-"], (-1), (fmt_nat (- z)). split; [reflexivity|]. split; [constructor|].
    split; [exact A|]. split; [exact C|]. lia.
  - destruct (fmt_nat_spec z L) as (A & B & C). exists [], 1, (fmt_nat z). split; [reflexivity|]. split; [constructor|]. split; [exact A|]. split; [exact C|]. lia.
Qed.
Lemma plain_lit b : forallb (fun c => existsb (Ascii.eqb c) [" "; "009"; "010"]) b = true -> plain b.
Proof.
  intros H c I. rewrite forallb_forall in H. specialize (H c I). apply existsb_exists in H. destruct H as (d & Id & E). apply Ascii.eqb_eq in E. subst d.
  cbn in *. tauto.
Qed.
Ltac isplain := apply plain_lit; reflexivity.

Section Written.
Variable rd : R -> R.
Variable p : Z.
Hypothesis Hp : 1 <= p.
Notation f := (fun x => rd (round10 p x)).

Lemma w_opening b k raw a : plain b -> map Upper raw = lit k -> plain a -> opening plain k (b ++ raw ++ ["["] ++ a).
Proof.
  intros B M A. exists (b ++ raw ++ []), a. split; [rewrite app_nil_r, <- !app_assoc; reflexivity|]. split; [|exact A].
  exists b, raw, []. split; [reflexivity|]. split; [exact B|]. split; [exact M|exact plain_nil].
Qed.
Lemma w_closing b : plain b -> closing plain (b ++ ["]"]). Proof. intros B. exists b. auto. Qed.
Lemma w_num b x : plain b -> num plain rd (b ++ fmt_double p x) (f x).
Proof. intros B. exists b, (fmt_double p x), (round10 p x). split; [reflexivity|]. split; [exact B|]. split; [apply fmt_numeral; exact Hp|reflexivity]. Qed.
Lemma w_int b z : plain b -> in_int z -> int plain (b ++ fmt_int z) z.
Proof. intros B I. exists b, (fmt_int z). split; [reflexivity|]. split; [exact B|]. split; [apply integer_fmt|exact I]. Qed.
Lemma w_bracketed cs b t xs : plain b -> bracketed plain rd cs t xs -> bracketed plain rd cs (b ++ t) xs.
Proof.
  intros B (b0 & u & -> & B0 & F). exists (b ++ b0), u. split; [rewrite <- app_assoc; reflexivity|]. split; [apply plain_app; auto|exact F].
Qed.
Lemma w_vector b v : plain b -> vector_list plain rd (b ++ write_Vector p v) (vmap f v).
Proof. intros B. apply w_bracketed; [exact B|]. exact (written_Vector rd p Hp v). Qed.
Lemma w_rotation b M : plain b -> closed_rotation plain rd (b ++ write_Rotation p M) (rmap f M).
Proof. intros B. left. apply w_bracketed; [exact B|]. exact (written_Rotation rd p Hp M). Qed.
Lemma w_frame b F : plain b -> closed_frame plain rd (b ++ write_Frame p F) (fmap f F).
Proof.
  intros B. destruct (written_Frame rd p Hp F) as [(b0 & tM & tp & b' & E & B0 & HM & HV & B')|(t1 & t2 & a & al & d & th & E & (b0 & w & a0 & -> & B0 & W & A0) & K)].
  - left. exists (b ++ b0), tM, tp, b'. split; [rewrite E, <- app_assoc; reflexivity|]. split; [apply plain_app; auto|]. auto.
  - right. exists ((b ++ b0) ++ w ++ a0), t2, a, al, d, th. split; [rewrite E, <- !app_assoc; reflexivity|]. split; [|exact K].
    exists (b ++ b0), w, a0. split; [reflexivity|]. split; [apply plain_app; auto|auto].
Qed.
Lemma w_interp b : plain b -> interp plain (b ++ lit "SingleAxis[]").
Proof.
  intros B. exists (b ++ lit "SingleAxis" ++ ["["] ++ []), ([] ++ ["]"]). split; [rewrite <- ?app_assoc; reflexivity|].
  split; [apply w_opening; [exact B|reflexivity|exact plain_nil]|apply w_closing; exact plain_nil].
Qed.

Ltac texts := unfold endl; cbn [lit list_ascii_of_string app]; repeat (rewrite <- ?app_assoc; cbn [app]); reflexivity.

Lemma w_line l : exists t, write_Line p l = t ++ [nl] /\ plain_path rd t (described f (PLeaf (LLine l))).
Proof.
  set (F := mkF (sa_Pos (ln_orient l) 0) (ln_start l)). set (G := mkF (sa_Pos (ln_orient l) (ln_len l * ln_scalerot l)) (ln_end l)).
  exists (([] ++ lit "LINE" ++ ["["] ++ lit " ") ++ (lit "  " ++ write_Frame p F) ++ ((nl :: lit "  ") ++ write_Frame p G)
    ++ ((nl :: lit "  ") ++ lit "SingleAxis[]") ++ ((" " :: nl :: lit "  ") ++ fmt_double p (ln_eqradius l)) ++ ([] ++ ["]"])).
  split; [unfold write_Line, write_SA; fold F G; texts|].
  cbn [described]. fold F G. apply pt_line; [apply w_opening; [isplain|reflexivity|isplain]|apply w_frame; isplain|apply w_frame; isplain|apply w_interp; isplain|apply (w_num _ (ln_eqradius l)); isplain|apply w_closing; isplain].
Qed.
Lemma w_circle c : exists t, write_Circle p c = t ++ [nl] /\ plain_path rd t (described f (PLeaf (LCircle c))).
Proof.
  set (F := circle_Pos c 0). set (M := sa_Pos (ci_orient c) (ci_len c * ci_scalerot c)). set (a := (ci_len c * ci_scalelin c / ci_radius c / deg2rad)%R).
  exists (([] ++ lit "CIRCLE" ++ ["["] ++ lit " ") ++ (lit "  " ++ write_Frame p F) ++ ((nl :: lit "  ") ++ write_Vector p (fp (ci_center c)))
    ++ ((nl :: lit "  ") ++ write_Vector p (r_UnitY (fM (ci_center c)))) ++ ((nl :: lit "  ") ++ write_Rotation p M)
    ++ ((nl :: lit "  ") ++ fmt_double p a) ++ [nl] ++ (lit "  " ++ lit "SingleAxis[]")
    ++ ((" " :: nl :: lit "  ") ++ fmt_double p (ci_eqradius c)) ++ ([] ++ ["]"])).
  split; [unfold write_Circle, write_SA; fold F M a; texts|].
  cbn [described]. fold F M. change (ci_len c * ci_scalelin c / ci_radius c / (PI / 180))%R with a.
  apply pt_circle; [apply w_opening; [isplain|reflexivity|isplain]|apply w_frame; isplain|apply w_vector; isplain|apply w_vector; isplain|apply w_rotation; isplain
    |apply (w_num _ a); isplain|split; [isplain|discriminate]|apply w_interp; isplain|apply (w_num _ (ci_eqradius c)); isplain|apply w_closing; isplain].
Qed.
Lemma w_point F : exists t, lit "POINT[ " ++ write_Frame p F ++ lit "]" ++ endl = t ++ [nl] /\ plain_path rd t (DPoint (fmap f F)).
Proof.
  exists (([] ++ lit "POINT" ++ ["["] ++ lit " ") ++ ([] ++ write_Frame p F) ++ ([] ++ ["]"])). split; [texts|].
  apply pt_point; [apply w_opening; [isplain|reflexivity|isplain]|apply w_frame; isplain|apply w_closing; isplain].
Qed.
Definition write_all (gv : list Path) : text := (fix all (gv : list Path) : text := match gv with [] => [] | c :: r => write_Path p c ++ all r end) gv.
Notation ppaths := (paths plain some rd (vector_list plain rd) (closed_rotation plain rd) (closed_frame plain rd)).
Lemma counts_all gv : (fix all (gv : list Path) : Prop := match gv with [] => True | c :: r => counts_ok c /\ all r end) gv -> Forall counts_ok gv.
Proof. induction gv as [|c gv IH]; intros H; constructor; [apply H|apply IH; apply H]. Qed.
Lemma w_all gv : Forall (fun P => exists t, write_Path p P = t ++ [nl] /\ plain_path rd t (described f P)) gv ->
  forall b, plain b -> exists t e, b ++ write_all gv = t ++ e /\ plain e /\ ppaths t (map (described f) gv).
Proof.
  induction 1 as [|P gv (t & E & H) _ IH]; intros b B.
  - exists [], b. split; [cbn; rewrite app_nil_r; reflexivity|]. split; [exact B|constructor].
  - destruct (IH [nl] ltac:(isplain)) as (u & e & E2 & Pe & H2). exists ((b ++ t) ++ u), e. cbn [write_all map].
    split; [|split; [exact Pe|constructor; [apply path_pre; assumption|exact H2]]].
    change (b ++ write_Path p P ++ write_all gv = ((b ++ t) ++ u) ++ e). rewrite E, <- !app_assoc, E2. reflexivity.
Qed.
Lemma w_path P : counts_ok P -> exists t, write_Path p P = t ++ [nl] /\ plain_path rd t (described f P).
Proof.
  induction P as [l|gv dv len ca IH|g n IH|c r e n Fs Fv IH] using path_ind'; intros C.
  - destruct l as [F|l|c]; [apply w_point|apply w_line|apply w_circle].
  - cbn [counts_ok] in C. destruct C as (Len & Max & C). apply counts_all in C.
    assert (H : Forall (fun P => exists t, write_Path p P = t ++ [nl] /\ plain_path rd t (described f P)) gv)
      by (rewrite Forall_forall in *; auto).
    destruct (w_all gv H [] ltac:(isplain)) as (u & e & E & Pe & HP). cbn [app] in E.
    exists (([] ++ lit "COMPOSITE" ++ ["["] ++ lit " ") ++ ((nl :: lit "   ") ++ fmt_int (Z.of_nat (length gv))) ++ [nl] ++ u ++ (e ++ ["]"])).
    split.
    + cbn [write_Path]. fold (write_all gv). rewrite Len, E. texts.
    + cbn [described]. apply (pt_composite _ _ _ _ _ _ _ _ _ _ _ (Z.of_nat (length gv)));
        [apply w_opening; [isplain|reflexivity|isplain]|apply w_int; [isplain|unfold in_int; lia]|split; [isplain|discriminate]|exact HP
        |rewrite map_length; lia|apply w_closing; exact Pe].
  - cbn [counts_ok] in C. destruct C as (I & C). destruct (IH C) as (t & E & H).
    exists (([] ++ lit "CYCLIC_CLOSED" ++ ["["] ++ lit " ") ++ (lit "  " ++ t) ++ ((nl :: nl :: lit "  ") ++ fmt_int n) ++ ([nl] ++ ["]"])).
    split; [cbn [write_Path]; rewrite E; texts|]. cbn [described].
    apply pt_cyclic; [apply w_opening; [isplain|reflexivity|isplain]|apply path_pre; [isplain|exact H]|apply w_int; [isplain|exact I]|apply w_closing; isplain].
  - exact (IH C).
Qed.
Lemma w_prof b m m' : plain b -> limits f m = Some m' -> plain_prof rd (b ++ write_Prof p m) m'.
Proof.
  intros B. destruct m as [t|h|r|d|s]; cbn [limits]; intros Q; try discriminate; injection Q as <-.
  - replace (b ++ write_Prof p (PTrap t)) with ((b ++ lit "TRAPEZOIDAL" ++ ["["] ++ []) ++ ([] ++ fmt_double p (tr_maxvel t)) ++ [] ++ [","] ++ ([] ++ fmt_double p (tr_maxacc t)) ++ ([] ++ ["]"]) ++ [])
      by (cbn [write_Prof]; texts).
    apply pr_trap; [apply w_opening; [exact B|reflexivity|isplain]|apply (w_num _ (tr_maxvel t)); isplain|isplain|apply (w_num _ (tr_maxacc t)); isplain|apply w_closing; isplain|isplain].
  - replace (b ++ write_Prof p (PHalf h)) with ((b ++ lit "TRAPEZOIDALHALF" ++ ["["] ++ []) ++ ([] ++ fmt_double p (th_maxvel h)) ++ [] ++ [","] ++ ([] ++ fmt_double p (th_maxacc h)) ++ [] ++ [","] ++ [] ++ fmt_bool (th_starting h) ++ ([] ++ ["]"]) ++ [])
      by (cbn [write_Prof]; texts).
    replace (half_make (f (th_maxvel h)) (f (th_maxacc h)) (th_starting h)) with (half_make (f (th_maxvel h)) (f (th_maxacc h)) ((if th_starting h then 1 else 0) =? 1))
      by (destruct (th_starting h); reflexivity).
    apply (pr_half plain rd); [apply w_opening; [exact B|reflexivity|isplain]|apply (w_num _ (th_maxvel h)); isplain|isplain|apply (w_num _ (th_maxacc h)); isplain|isplain|isplain| | |apply w_closing; isplain|isplain].
    + destruct (th_starting h); [exact (integer_fmt 1)|exact (integer_fmt 0)].
    + destruct (th_starting h); auto.
  - replace (b ++ write_Prof p (PRect r)) with ((b ++ lit "CONSTVEL" ++ ["["] ++ []) ++ ([] ++ fmt_double p (re_maxvel r)) ++ ([] ++ ["]"]) ++ [])
      by (cbn [write_Prof]; texts).
    apply pr_rect; [apply w_opening; [exact B|reflexivity|isplain]|apply (w_num _ (re_maxvel r)); isplain|apply w_closing; isplain|isplain].
  - replace (b ++ write_Prof p (PDirac d)) with ((b ++ lit "DIRACVEL" ++ ["["] ++ []) ++ ([" "] ++ ["]"]) ++ [])
      by (cbn [write_Prof]; texts).
    apply pr_dirac; [apply w_opening; [exact B|reflexivity|isplain]|apply w_closing; isplain|isplain].
Qed.
Lemma prof_post t m a : plain a -> plain_prof rd t m -> plain_prof rd (t ++ a) m.
Proof.
  intros A H. destruct H; rewrite <- ?app_assoc; cbn [app]; rewrite <- ?app_assoc; econstructor; eauto; apply plain_app; auto.
Qed.
Lemma w_traj g m m' : counts_ok g -> limits f m = Some m' -> plain_traj rd (write_Traj p (TSegment g m)) (described f g) m'.
Proof.
  intros C L. destruct (w_path g C) as (t & E & H).
  replace (write_Traj p (TSegment g m)) with (([] ++ lit "SEGMENT" ++ ["["] ++ [" "; nl]) ++ (lit "  " ++ t) ++ ((nl :: nl :: lit "  ") ++ write_Prof p m) ++ ([nl] ++ ["]"]))
    by (cbn [write_Traj]; rewrite E; texts).
  constructor; [apply w_opening; [isplain|reflexivity|isplain]|apply path_pre; [isplain|exact H]|apply w_prof; [isplain|exact L]|apply w_closing; isplain].
Qed.
End Written.
