(** Concrete cases meeting the hypotheses of the velocity-profile theorems. *)
From Coq Require Import Reals Lra.
From Verif Require Import FramesModel Outcome ProfModel ProfSpec ProfProofs ProfProofs2 ProfProofs3 ProfProofs4.
Local Open Scope R_scope.

(** A move from 0 to 3 with maxvel 1 and maxacc 1 is a full trapezoid of
    duration 4; the reverse move from 1/4 to 0 is triangular of duration 1. *)
Lemma prof_witness :
  (exists t, trap_setProfile (trap_make 1 1) 0 3 = Ret t /\ trap_duration t = 4 /\ trap_vel t 2 = 1) /\
  (exists t, trap_setProfile (trap_make 1 1) (1 / 4) 0 = Ret t /\ trap_duration t = 1 /\ trap_vel t (1 / 2) = - (1 / 2)).
Proof.
  split; unfold trap_setProfile; simpl; destruct (Req_EM_T 1 0) as [Q|_]; try (exfalso; lra); unfold sign, sqr.
  - destruct (Rlt_dec (3 - 0) 0) as [Q|_]; [exfalso; lra|].
    destruct (Rlt_dec 0 _) as [_|Q]; [|exfalso; apply Q; lra].
    eexists. split; [reflexivity|]. unfold trap_duration, trap_vel, plan_vel, ltN; simpl.
    split; [lra|]. rdec; lra.
  - destruct (Rlt_dec (0 - 1 / 4) 0) as [_|Q]; [|exfalso; lra].
    destruct (Rlt_dec 0 _) as [Q|_].
    { exfalso. replace ((0 - 1 / 4 - 2 * (-1 * 1 * (1 / 1 * (1 / 1)) / 2)) / (-1 * 1)) with (- (3 / 4)) in Q by field. lra. }
    replace ((0 - 1 / 4) / -1 / 1) with (1 / 2 * (1 / 2)) by field. rewrite sqrt_square by lra.
    eexists. split; [reflexivity|]. unfold trap_duration, trap_vel, plan_vel, ltN; simpl.
    split; [lra|]. rdec; lra.
Qed.
