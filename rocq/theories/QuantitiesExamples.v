(** * Concrete sequences of calls *)
From Coq Require Import Reals String List Bool Arith Lia Lra.
From Verif Require Import Quantities QuantitiesSpec QuantitiesProofs TimeLoop TimeLoopSpec TimeLoopFinal TimeLoopExamples.
Import ListNotations.
Local Open Scope R_scope.

Definition wall : manifold := {| m_name := "wall"; m_time := false; m_space := true; m_inst := true; m_masses := [1] |}.
Definition wake : manifold := {| m_name := "wake"; m_time := true; m_space := true; m_inst := true; m_masses := [1; 2] |}.

Definition ex_calls : list call :=
  [Acc 0 (fun _ => [1; 2]); Acc 1 (fun _ => [3; 4]); Out 1 0 (fun _ => [3; 4]); Acc 3 (fun _ => [5; 7])].

Ltac qdec := repeat (
  lazy -[Req_EM_T Rplus Rmult Rminus Ropp Rdiv Rinv IZR Rle Rlt not In];
  match goal with
  | |- context [Req_EM_T ?a ?b] =>
      lazymatch a with context [Req_EM_T _ _] => fail | _ => idtac end;
      destruct (Req_EM_T a b); [try (exfalso; lra)|try (exfalso; lra)]
  end).

Lemma ex_calls_ok :
  NoDup (map m_name [wall; wake]) /\ In wake [wall; wake] /\ m_time wake = true /\
  increasing (map fst (all_recorded wake ex_calls)) /\
  (forall x, In x (all_recorded wake ex_calls) -> length (snd x) = length (m_masses wake)) /\
  (exists fs q', perform false [wall; wake] (ex_calls ++ [Out 3 1 (fun _ => [5; 7])]) (q_prepare [wall; wake]) = Some (fs, q')) /\
  recorded false wake ex_calls [] = (0, [1; 2]) :: [(1, [3; 4]); (3, [5; 7])].
Proof.
  split. { constructor; [intros [H|[]]; discriminate|]. constructor; [intros []|constructor]. }
  split; [right; left; reflexivity|]. split; [reflexivity|].
  split; [cbn; lra|]. split; [intros x [<-|[<-|[<-|[]]]]; reflexivity|].
  split; [|reflexivity]. cbn [ex_calls app perform].
  set (q1 := q_accumulate _ _ 0 _). destruct (write_out_total false [wall; wake] (fun _ => [3; 4]) 1 0 q1 (fun _ => [3; 4])) as [[f2 q2] ->].
  destruct (write_out_total false [wall; wake] (fun _ => [5; 7]) 3 1 q2 (fun _ => [5; 7])) as [[f3 q3] ->]. eexists. eexists. reflexivity.
Qed.

Lemma C51_tiling_refuted_proof :
  exists ms cs fs q', NoDup (map m_name ms) /\ (exists m, In m ms /\ m_time m = true /\ map fst (all_recorded m cs) = [0; 1; 2; 3]) /\
    perform true ms cs (q_prepare ms) = Some (fs, q') /\
    (exists v, In (QAverage "wake" 0 0 1 v) fs) /\ (exists v, In (QAverage "wake" 1 2 3 v) fs) /\
    forall name n a b v, In (QAverage name n a b v) fs -> ~ (a <= 3 / 2 <= b).
Proof.
  exists [{| m_name := "wake"; m_time := true; m_space := false; m_inst := false; m_masses := [1] |}],
    [Acc 0 (fun _ => [1]); Acc 1 (fun _ => [2]); Out 1 0 (fun _ => [2]); Acc 2 (fun _ => [3]); Acc 3 (fun _ => [4]); Out 3 1 (fun _ => [4])].
  eexists. eexists. split. { constructor; [intros []|constructor]. }
  split. { eexists. split; [left; reflexivity|]. split; reflexivity. }
  split; [qdec; reflexivity|].
  split. { eexists. right. left. f_equal; lra. }
  split. { eexists. right. right. left. f_equal; lra. }
  intros name n' a b v [H|[H|[H|[]]]]; try discriminate; injection H as _ _ <- <- _; lra.
Qed.

Lemma C51_header_refuted_proof :
  exists ms t cycle sample fs q', perform false ms [Acc t sample; Out t cycle sample] (q_prepare ms) = Some (fs, q') /\
    exists name l, In (QSeries name cycle true l) fs.
Proof.
  exists [{| m_name := "a"; m_time := false; m_space := true; m_inst := false; m_masses := [1] |};
          {| m_name := "b"; m_time := false; m_space := true; m_inst := false; m_masses := [1] |}], 0, 0%nat, (fun _ => [1]).
  eexists. eexists. split; [qdec; reflexivity|]. exists "b"%string. eexists. right. right. left. reflexivity.
Qed.

Lemma C51_adaptation_refuted_proof :
  exists (E : environment R R) C s0 fuel evs L' m t,
    main_loop R R E C fuel (start R R C s0) = Some (evs, L', true) /\ In m (manifolds C) /\ m_space m = true /\
    enable_compute_quantities C = true /\ In t (levels evs) /\ t < l_t _ _ L' /\
    forall fs a, In (QFiles R R fs) evs -> ~ In (t, a) (rows (m_name m) fs).
Proof.
  exists (counter (1/2)), (setup 1 false false false true true [1/2] true false [{| m_name := "a"; m_time := false; m_space := true; m_inst := false; m_masses := [1] |}]), 0, 3%nat.
  eexists. eexists. exists {| m_name := "a"; m_time := false; m_space := true; m_inst := false; m_masses := [1] |}, (0 + 1/2).
  split; [dec; reflexivity|]. split; [left; reflexivity|]. split; [reflexivity|]. split; [reflexivity|].
  split; [right; left; reflexivity|]. split; [cbn; lra|].
  intros fs a Hin. repeat (destruct Hin as [Hin|Hin]; [try discriminate|]); try contradiction; injection Hin as <-; cbn; intros [H|H]; try contradiction; injection H as H _; lra.
Qed.
