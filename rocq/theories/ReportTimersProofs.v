(** * Proofs: timers of sections *)
From Coq Require Import Reals String List Bool Lra.
From Verif Require Import ReportTimers ReportTimersSpec.
Import ListNotations.
Local Open Scope R_scope.

Lemma exec_clock c : forall now T, fst (fst (exec c now T)) = now + duration c /\ snd (exec c now T) = throws c.
Proof.
  induction c as [d|a IHa b IHb|n a IHa|]; intros now T; cbn [exec duration throws].
  - split; reflexivity.
  - destruct (IHa now T) as [E1 E2]. destruct (exec a now T) as [[now1 T1] e]. cbn in E1, E2. subst.
    destruct (throws a); cbn [fst snd orb].
    + split; reflexivity.
    + destruct (IHb (now + duration a) T1) as [F1 F2]. rewrite F1, F2. split; [ring|reflexivity].
  - destruct (IHa now (update T n (start now (T n)))) as [E1 E2].
    destruct (exec a now _) as [[now1 T1] e]. cbn in E1, E2 |- *. auto.
  - cbn [fst snd]. split; [ring|reflexivity].
Qed.

Lemma exec_other c m : ~ has m c -> forall now T, snd (fst (exec c now T)) m = T m.
Proof.
  induction c as [d|a IHa b IHb|n a IHa|]; intros H now T; cbn [exec has] in *; try reflexivity.
  - assert (Ea := IHa (fun X => H (or_introl X)) now T). destruct (exec a now T) as [[now1 T1] e]. cbn in Ea.
    destruct e; cbn [fst snd]; [exact Ea|]. rewrite (IHb (fun X => H (or_intror X))). exact Ea.
  - assert (Ea := IHa (fun X => H (or_intror X)) now (update T n (start now (T n)))).
    destruct (exec a now _) as [[now1 T1] e]. cbn in Ea |- *. unfold update in *.
    destruct (String.eqb_spec m n) as [->|N]; [exfalso; apply H; left; reflexivity|exact Ea].
Qed.

Lemma spent_absent c m : ~ has m c -> spent m c = 0.
Proof.
  induction c as [d|a IHa b IHb|n a IHa|]; intros H; cbn [spent has] in *; try reflexivity.
  - rewrite IHa, IHb by tauto. destruct (throws a); lra.
  - destruct (String.eqb_spec n m) as [->|N]; [tauto|]. apply IHa. tauto.
Qed.

(** The timers of sections that are closed. *)
Lemma exec_timers c m : not_reentrant c -> forall now T, t_lap (T m) = None ->
  snd (fst (exec c now T)) m = {| t_total := t_total (T m) + spent m c; t_lap := None |}.
Proof.
  induction c as [d|a IHa b IHb|n a IHa|]; intros H now T HT; cbn [exec spent not_reentrant] in *.
  - cbn. destruct (T m) as [x o]; cbn in *; subst. f_equal. ring.
  - destruct H as [Ha Hb]. assert (Ea := IHa Ha now T HT). destruct (exec_clock a now T) as [_ E2].
    destruct (exec a now T) as [[now1 T1] e]. cbn in Ea, E2. subst e. destruct (throws a); cbn [fst snd].
    + exact Ea.
    + rewrite (IHb Hb now1 T1); rewrite Ea; cbn [t_total t_lap]; [f_equal; ring|reflexivity].
  - destruct H as [Hn Ha]. destruct (String.eqb_spec n m) as [->|N].
    + assert (Eo := exec_other a m Hn now (update T m (start now (T m)))).
      destruct (exec_clock a now (update T m (start now (T m)))) as [E1 _].
      destruct (exec a now _) as [[now1 T1] e]. cbn in Eo, E1. cbn [fst snd]. unfold update in *.
      rewrite String.eqb_refl in *. rewrite Eo. unfold stop, start. cbn [t_lap t_total]. subst now1. f_equal. ring.
    + assert (Ea := IHa Ha now (update T n (start now (T n)))).
      destruct (exec a now _) as [[now1 T1] e]. cbn [fst snd] in *. unfold update in *.
      destruct (String.eqb_spec m n) as [->|_]; [congruence|]. exact (Ea HT).
  - cbn. destruct (T m) as [x o]; cbn in *; subst. f_equal. ring.
Qed.

Lemma C155_timers_proof c now m :
  not_reentrant c ->
  let '(now', T, _) := exec c now (fun _ => fresh) in
  now' = now + duration c /\ forall later, reading later (T m) = spent m c.
Proof.
  intros H. destruct (exec_clock c now (fun _ => fresh)) as [E1 _].
  assert (E := exec_timers c m H now (fun _ => fresh) eq_refl).
  destruct (exec c now (fun _ => fresh)) as [[now' T] e]. cbn in E1, E. split; [exact E1|].
  intros later. rewrite E. unfold reading. cbn. ring.
Qed.

Lemma C155_running_proof c now n T :
  not_reentrant (Scoped n c) -> t_lap (T n) = None ->
  let '(now', T', _) := exec c now (update T n (start now (T n))) in
  reading now' (T' n) = t_total (T n) + duration c.
Proof.
  intros [Hn _] HT. assert (Eo := exec_other c n Hn now (update T n (start now (T n)))).
  destruct (exec_clock c now (update T n (start now (T n)))) as [E1 _].
  destruct (exec c now _) as [[now1 T1] e]. cbn in Eo, E1. unfold update in Eo. rewrite String.eqb_refl in Eo.
  rewrite Eo. unfold reading, start. cbn. subst. ring.
Qed.

Lemma duration_nonneg c : forward c -> 0 <= duration c.
Proof.
  induction c as [d|a IHa b IHb|n a IHa|]; cbn [forward duration]; intros H; try lra.
  - destruct H as [Ha Hb]. specialize (IHa Ha). specialize (IHb Hb). destruct (throws a); lra.
  - exact (IHa H).
Qed.

Definition sum_spent (l : list string) (c : code) : R := fold_right Rplus 0 (map (fun m => spent m c) l).
Lemma sum_absent l c : (forall m, In m l -> ~ has m c) -> sum_spent l c = 0.
Proof.
  unfold sum_spent. induction l as [|x l IH]; intros H; cbn; [reflexivity|].
  rewrite spent_absent by (apply H; left; reflexivity). rewrite IH; [ring|]. intros m Hm. apply H. right; exact Hm.
Qed.
Lemma sum_ext (f g : string -> R) l : (forall m, In m l -> f m = g m) -> fold_right Rplus 0 (map f l) = fold_right Rplus 0 (map g l).
Proof.
  induction l as [|x l IH]; intros H; cbn; [reflexivity|]. rewrite (H x (or_introl eq_refl)), IH; [reflexivity|].
  intros m Hm. apply H. right; exact Hm.
Qed.
Lemma sum_plus (f g : string -> R) l : fold_right Rplus 0 (map (fun m => f m + g m) l) = fold_right Rplus 0 (map f l) + fold_right Rplus 0 (map g l).
Proof. induction l as [|x l IH]; cbn; [ring|rewrite IH; ring]. Qed.
Lemma sum_one n v l : NoDup l -> In n l -> fold_right Rplus 0 (map (fun m => if String.eqb n m then v else 0) l) = v.
Proof.
  induction l as [|x l IH]; intros HN HI; [destruct HI|]. inversion HN as [|? ? Hx HN']; subst. cbn.
  destruct (String.eqb_spec n x) as [->|N].
  - assert (Z : fold_right Rplus 0 (map (fun m => if String.eqb x m then v else 0) l) = 0).
    { clear -Hx. induction l as [|y l IH]; cbn; [reflexivity|]. destruct (String.eqb_spec x y) as [->|N].
      - exfalso. apply Hx. left; reflexivity.
      - rewrite IH; [ring|]. intros X. apply Hx. right; exact X. }
    rewrite Z. ring.
  - destruct HI as [->|HI]; [congruence|]. rewrite (IH HN' HI). ring.
Qed.

Lemma sum_bound l c : NoDup l -> separate l c -> forward c -> sum_spent l c <= duration c.
Proof.
  intros HN. induction c as [d|a IHa b IHb|n a IHa|]; cbn [separate forward duration]; intros HS HF.
  - rewrite sum_absent; [exact HF|]. intros m _ [].
  - destruct HS as [Sa Sb], HF as [Fa Fb]. specialize (IHa Sa Fa). specialize (IHb Sb Fb).
    unfold sum_spent in *. cbn [spent]. destruct (throws a); [exact IHa|]. rewrite sum_plus. lra.
  - destruct HS as [Sn Sa]. destruct (in_dec string_dec n l) as [I|I].
    + unfold sum_spent. cbn [spent].
      rewrite (sum_ext _ (fun m => if String.eqb n m then duration a else 0)).
      * rewrite sum_one by assumption. lra.
      * intros m Hm. destruct (String.eqb n m); [reflexivity|]. apply spent_absent. exact (Sn I m Hm).
    + unfold sum_spent. cbn [spent]. rewrite (sum_ext _ (fun m => spent m a)); [exact (IHa Sa HF)|].
      intros m Hm. destruct (String.eqb_spec n m) as [->|_]; [contradiction|reflexivity].
  - rewrite sum_absent; [lra|]. intros m _ [].
Qed.

Lemma C155_timers_sum_proof c now l :
  not_reentrant c -> NoDup l -> separate l c -> forward c ->
  let '(now', T, _) := exec c now (fun _ => fresh) in
  fold_right Rplus 0 (map (fun m => reading now' (T m)) l) <= now' - now.
Proof.
  intros HR HN HS HF. pose proof (sum_bound l c HN HS HF) as B.
  destruct (exec_clock c now (fun _ => fresh)) as [E1 _].
  assert (E : forall m, snd (fst (exec c now (fun _ => fresh))) m = {| t_total := 0 + spent m c; t_lap := None |})
    by (intros m; exact (exec_timers c m HR now (fun _ => fresh) eq_refl)).
  destruct (exec c now (fun _ => fresh)) as [[now' T] e]. cbn in E1, E. subst now'.
  rewrite (sum_ext _ (fun m => spent m c)).
  - unfold sum_spent in B. lra.
  - intros m _. rewrite E. unfold reading. cbn. ring.
Qed.

Definition two_steps : code :=
  Scoped "time loop" (Seq (Scoped "step" (Work 3)) (Seq (Work 1) (Seq (Scoped "output" (Work 2)) (Scoped "step" (Seq (Work 1) Throw))))).
Lemma timers_case : not_reentrant two_steps /\ separate ["step"; "output"]%string two_steps /\ forward two_steps /\
  NoDup ["step"; "output"]%string /\ spent "time loop" two_steps = 7 /\ spent "step" two_steps = 4 /\ spent "output" two_steps = 2.
Proof.
  cbn. repeat split; try lra; try (repeat constructor; cbn; intuition discriminate); try (intuition discriminate); try tauto.
Qed.
(** A section inside itself: one of three seconds is counted. *)
Lemma reentrant_case : let c := Scoped "a" (Seq (Work 1) (Seq (Scoped "a" (Work 1)) (Work 1))) in
  duration c = 3 /\ let '(now, T, _) := exec c 0 (fun _ => fresh) in reading now (T "a"%string) = 1.
Proof. cbn. split; ring. Qed.
