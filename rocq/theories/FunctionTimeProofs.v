(** * Proofs: user given initial states are evaluated at the time asked for *)
From Coq Require Import Reals List Bool Arith Lia Lra FunctionalExtensionality.
From Verif Require Import RVec SWSystem Geotiff InitialRegions FunctionTime FunctionTimeSpec.
Import ListNotations.
Local Open Scope R_scope.

Lemma perform_all_app f l1 : forall l2 c,
  snd (perform_all f (l1 ++ l2) c) = snd (perform_all f l1 c) ++ snd (perform_all f l2 (fst (perform_all f l1 c))).
Proof.
  induction l1 as [|o l1 IH]; intros l2 c; [reflexivity|].
  cbn [app perform_all]. destruct (perform f o c) as [c1 r1] eqn:E.
  specialize (IH l2 c1). destruct (perform_all f (l1 ++ l2) c1) as [c2 r2], (perform_all f l1 c1) as [c3 r3].
  cbn [fst snd] in *. rewrite IH, app_assoc. reflexivity.
Qed.

Lemma perform_compute f parsers x t : forall c,
  snd (perform_all f (compute_calls parsers x t) c) = map (fun k => f k x t) parsers.
Proof.
  induction parsers as [|k ks IH]; intros c; [reflexivity|].
  cbn [compute_calls perform_all perform]. specialize (IH (set_time k t c)).
  destruct (perform_all f (compute_calls ks x t) (set_time k t c)) as [c2 r2]. cbn [fst snd] in *.
  cbn [map app]. rewrite IH. f_equal. unfold set_time. rewrite Nat.eqb_refl. reflexivity.
Qed.

Lemma perform_program f parsers calls : forall c,
  snd (perform_all f (program parsers calls) c) = values_at f parsers calls.
Proof.
  induction calls as [|[x t] calls IH]; intros c; [reflexivity|].
  cbn [program values_at]. rewrite perform_all_app, perform_compute, IH. reflexivity.
Qed.

Lemma C161_calls_proof : forall f parsers calls c,
  snd (perform_all f (program parsers calls) c) = values_at f parsers calls.
Proof. intros. apply perform_program. Qed.

Lemma C161_scalar_proof : forall f x t c,
  forall k, snd (scalar_compute f x t c) k = match k with O => f 0%nat x t | S _ => 0 end.
Proof.
  intros f x t c k. unfold scalar_compute.
  pose proof (perform_compute f [0%nat] x t c) as E.
  destruct (perform_all f (compute_calls [0%nat] x t) c) as [c' r]. cbn [snd] in *. subst r.
  destruct k as [|[|k]]; reflexivity.
Qed.

Lemma nth_map_seq (g : nat -> R) n : forall s k,
  nth k (map g (seq s n)) 0 = if Nat.ltb k n then g (s + k)%nat else 0.
Proof.
  induction n as [|n IH]; intros s k; [destruct k; reflexivity|].
  destruct k as [|k]; cbn [seq map nth]; [rewrite Nat.add_0_r; reflexivity|].
  rewrite IH. replace (S s + k)%nat with (s + S k)%nat by lia.
  change (Nat.ltb (S k) (S n)) with (Nat.ltb k n). reflexivity.
Qed.

Lemma C161_gas_proof : forall dim from_primitive f x t c,
  snd (gas_compute dim from_primitive f x t c) =
  gas_function dim from_primitive (f 0%nat) (fun i => f (S i)) (f (S dim)) x t.
Proof.
  intros dim from f x t c. unfold gas_compute, gas_function.
  pose proof (perform_compute f (seq 0 (dim + 2)) x t c) as E.
  destruct (perform_all f (compute_calls (seq 0 (dim + 2)) x t) c) as [c' r]. cbn [snd] in *. subst r.
  f_equal. apply functional_extensionality. intros k. unfold tensor. rewrite nth_map_seq, Nat.add_0_l.
  destruct (Nat.eqb_spec k 0) as [->|N0].
  - destruct (Nat.ltb_spec 0 (dim + 2)); [reflexivity|lia].
  - destruct (Nat.eqb_spec k (S dim)) as [->|N1].
    + destruct (Nat.ltb_spec (S dim) (dim + 2)); [reflexivity|lia].
    + destruct (Nat.ltb_spec k (dim + 2)), (Nat.leb_spec k dim); try lia; [|reflexivity].
      replace (S (k - 1)) with k by lia. reflexivity.
Qed.

Lemma C161_water_proof : forall dim f x t c,
  snd (water_compute dim f x t c) = water_function dim (f 0%nat) (fun i => f (S i)) x t.
Proof.
  intros dim f x t c. unfold water_compute, water_function.
  pose proof (perform_compute f (seq 0 (1 + Nat.min dim 2)) x t c) as E.
  destruct (perform_all f (compute_calls (seq 0 (1 + Nat.min dim 2)) x t) c) as [c' r]. cbn [snd] in *. subst r.
  f_equal. apply functional_extensionality. intros k. unfold tensor. rewrite nth_map_seq, Nat.add_0_l.
  destruct (Nat.eqb_spec k 0) as [->|N0].
  - destruct (Nat.ltb_spec 0 (1 + Nat.min dim 2)); [reflexivity|lia].
  - destruct (Nat.ltb_spec k (1 + Nat.min dim 2)), (Nat.leb_spec k dim), (Nat.leb_spec k 2); try lia; try reflexivity.
    cbn [andb]. replace (S (k - 1)) with k by lia. reflexivity.
Qed.

Lemma C161_geotiff_proof : forall p img dim f x t c,
  snd (geotiff_compute p img dim f x t c) = gt_compute p img dim (f 0%nat) (f 1%nat) x t.
Proof.
  intros p img dim f x t c. unfold geotiff_compute, gt_compute.
  destruct (compute_bathymetry p img dim x) as [z| |]; try reflexivity.
  cbn [perform_all perform fst snd app]. unfold set_time, tensor. cbn [Nat.eqb fst snd nth].
  do 2 f_equal. apply functional_extensionality. intros [|[|[|k]]]; reflexivity.
Qed.

(** ** Threads *)

(** Every value() that is still to come is preceded by a set_time() with [t], on the same
    thread, or the parser has this time already. *)
Fixpoint guarded (t : R) (A : nat -> Prop) (l : list op) : Prop :=
  match l with
  | [] => True
  | SetTime k s :: r => s = t /\ guarded t (fun j => j = k \/ A j) r
  | Value k _ :: r => A k /\ guarded t A r
  end.

Lemma guarded_mono t l : forall (A B : nat -> Prop), (forall j, A j -> B j) -> guarded t A l -> guarded t B l.
Proof.
  induction l as [|[k s|k x] l IH]; intros A B H; cbn; [tauto| |].
  - intros [E G]. split; [exact E|]. revert G. apply IH. intros j [->|Hj]; auto.
  - intros [E G]. split; [auto|]. revert G. apply IH. exact H.
Qed.

(** What the values to come should be. *)
Fixpoint due (f : expressions) (t : R) (l : list op) : list R :=
  match l with
  | [] => []
  | SetTime _ _ :: r => due f t r
  | Value k x :: r => f k x t :: due f t r
  end.

Lemma guarded_compute t parsers x l : forall A : nat -> Prop, (forall B : nat -> Prop, (forall j, A j -> B j) -> guarded t B l) ->
  guarded t A (compute_calls parsers x t ++ l).
Proof.
  induction parsers as [|k ks IH]; intros A H; cbn [compute_calls app guarded]; [apply H; auto|].
  split; [reflexivity|]. split; [left; reflexivity|]. apply IH. intros B HB. apply H. auto.
Qed.

Lemma guarded_program t parsers calls : Forall (fun a => snd a = t) calls -> forall A, guarded t A (program parsers calls).
Proof.
  induction 1 as [|[x s] calls E _ IH]; intros A; [exact I|]. cbn [snd] in E. subst s.
  cbn [program]. apply guarded_compute. auto.
Qed.

Lemma due_compute f t parsers x : forall l, due f t (compute_calls parsers x t ++ l) = map (fun k => f k x t) parsers ++ due f t l.
Proof. induction parsers as [|k ks IH]; intros l; [reflexivity|]. cbn [compute_calls app due map]. rewrite IH. reflexivity. Qed.

Lemma due_program f t parsers calls : Forall (fun a => snd a = t) calls -> due f t (program parsers calls) = values_at f parsers calls.
Proof.
  induction 1 as [|[x s] calls E _ IH]; [reflexivity|]. cbn [snd] in E. subst s.
  cbn [program values_at]. rewrite due_compute, IH. reflexivity.
Qed.

Definition well (f : expressions) (t : R) (c : clocks) (th : thread) (v : list R) : Prop :=
  guarded t (fun k => c k = t) (todo th) /\ got th ++ due f t (todo th) = v.

Lemma well_step f t s s' : step f s s' -> forall vs, Forall2 (well f t (fst s)) (snd s) vs -> Forall2 (well f t (fst s')) (snd s') vs.
Proof.
  intros [c before o rest r after] vs H. cbn [fst snd] in *.
  apply Forall2_app_inv_l in H. destruct H as (v1 & v2 & H1 & H2 & ->).
  inversion H2 as [|? v ? v3 [G D] H3]; subst. cbn [todo got] in *.
  assert (M : forall j, c j = t -> fst (perform f o c) j = t).
  { intros j Hj. destruct o as [k u|k x]; [|exact Hj]. destruct G as [-> _]. cbn. unfold set_time. destruct (Nat.eqb j k); auto. }
  assert (W : forall th w, well f t c th w -> well f t (fst (perform f o c)) th w).
  { intros th w [G' D']. split; [|exact D']. revert G'. apply guarded_mono. exact M. }
  apply Forall2_app; [|constructor].
  - revert H1. clear -W. induction 1; constructor; auto.
  - destruct o as [k u|k x]; cbn [guarded due perform fst snd] in *.
    + destruct G as [-> G]. split; cbn [todo got].
      * revert G. apply guarded_mono. intros j [->|Hj]; unfold set_time; [rewrite Nat.eqb_refl; reflexivity|destruct (Nat.eqb j k); auto].
      * rewrite app_nil_r. reflexivity.
    + destruct G as [Hk G]. split; cbn [todo got]; [exact G|]. rewrite <- app_assoc. cbn [app]. rewrite Hk. reflexivity.
  - revert H3. clear -W. induction 1; constructor; auto.
Qed.

Lemma well_steps f t s s' : steps f s s' -> forall vs, Forall2 (well f t (fst s)) (snd s) vs -> Forall2 (well f t (fst s')) (snd s') vs.
Proof. induction 1; intros vs H'; [exact H'|]. apply IHsteps. eapply well_step; eauto. Qed.

Lemma C161_threads_proof : forall f parsers t calls c c' final,
  Forall (Forall (fun a => snd a = t)) calls ->
  steps f (c, map (begin parsers) calls) (c', final) ->
  Forall (fun th => todo th = []) final ->
  map got final = map (values_at f parsers) calls.
Proof.
  intros f parsers t calls c c' final Ht S Done.
  assert (H : Forall2 (well f t c) (map (begin parsers) calls) (map (values_at f parsers) calls)).
  { clear -Ht. induction Ht as [|cs calls E _ IH]; constructor; [|exact IH].
    split; cbn [begin todo got]; [apply guarded_program; exact E|apply due_program; exact E]. }
  pose proof (well_steps f t _ _ S _ H) as W. cbn [fst snd] in W.
  remember (map (values_at f parsers) calls) as vs eqn:Ev. clear -Done W.
  revert vs W. induction Done as [|th ths E _ IH]; intros vs W; inversion W as [|? v ? vs' [_ D] W']; subst; [reflexivity|].
  cbn [map]. rewrite (IH _ W'), E, app_nil_r. reflexivity.
Qed.

(** The time as the expression. *)
Definition clock_expression : expressions := fun _ _ t => t.

Lemma C161_threads_refuted_proof : exists f parsers calls c c' final,
  steps f (c, map (begin parsers) calls) (c', final) /\
  Forall (fun th => todo th = []) final /\
  map got final <> map (values_at f parsers) calls.
Proof.
  set (o := fun _ : nat => 0).
  exists clock_expression, [0%nat], [[(o, 1)]; [(o, 2)]], (fun _ => 0).
  eexists. exists [{| todo := []; got := [2] |}; {| todo := []; got := [2] |}].
  split; [|split].
  - eapply steps_next; [exact (Step clock_expression _ [] _ _ _ [begin [0%nat] [(o, 2)]])|].
    eapply steps_next; [exact (Step clock_expression _ [{| todo := [Value 0 o]; got := [] |}] (SetTime 0 2) [Value 0 o] [] [])|].
    eapply steps_next; [exact (Step clock_expression _ [] (Value 0 o) [] [] [{| todo := [Value 0 o]; got := [] |}])|].
    eapply steps_next; [exact (Step clock_expression _ [{| todo := []; got := [2] |}] (Value 0 o) [] [] [])|].
    apply steps_refl.
  - repeat constructor.
  - cbn. unfold clock_expression. intros E. injection E as E. lra.
Qed.

(** A gas in two space dimensions whose density grows with the time, after calls for other times. *)
Definition growing : expressions := fun k x t => if Nat.eqb k 0 then 1 + t else INR k * x 0%nat.

Lemma calls_case :
  values_at growing [0%nat; 1%nat] [((fun _ => 3), 2); ((fun _ => 5), 1)] = [1 + 2; 1 * 3; 1 + 1; 1 * 5].
Proof. reflexivity. Qed.

(** Two threads that evaluate at the same time and are interleaved as badly as possible. *)
Lemma threads_case :
  let o := fun _ : nat => 0 in
  Forall (Forall (fun a => snd a = 1)) [[(o, 1)]; [(o, 1)]] /\
  exists c' final,
  steps clock_expression (fun _ => 0, map (begin [0%nat]) [[(o, 1)]; [(o, 1)]]) (c', final) /\
  Forall (fun th => todo th = []) final.
Proof.
  intros o. split; [repeat constructor|]. eexists. exists [{| todo := []; got := [1] |}; {| todo := []; got := [1] |}].
  split; [|repeat constructor].
  eapply steps_next; [exact (Step clock_expression _ [] _ _ _ [begin [0%nat] [(o, 1)]])|].
  eapply steps_next; [exact (Step clock_expression _ [{| todo := [Value 0 o]; got := [] |}] (SetTime 0 1) [Value 0 o] [] [])|].
  eapply steps_next; [exact (Step clock_expression _ [] (Value 0 o) [] [] [{| todo := [Value 0 o]; got := [] |}])|].
  eapply steps_next; [exact (Step clock_expression _ [{| todo := []; got := [1] |}] (Value 0 o) [] [] [])|].
  apply steps_refl.
Qed.

Lemma scalar_case : snd (scalar_compute growing (fun _ => 3) 2 (fun _ => 7)) 0%nat = 3.
Proof. rewrite C161_scalar_proof. unfold growing. cbn. lra. Qed.

Lemma gas_case : snd (gas_compute 2 (fun w => w) growing (fun _ => 3) 2 (fun _ => 7)) 0%nat = 3 /\
  snd (gas_compute 2 (fun w => w) growing (fun _ => 3) 2 (fun _ => 7)) 3%nat = 9.
Proof. rewrite C161_gas_proof. unfold gas_function, growing. cbn. split; lra. Qed.

Lemma water_case : snd (water_compute 1 growing (fun _ => 3) 2 (fun _ => 7)) 0%nat = 3 /\
  snd (water_compute 1 growing (fun _ => 3) 2 (fun _ => 7)) 1%nat = 9.
Proof. rewrite C161_water_proof. unfold water_function, growing, w_from_primitive_state. cbn. split; lra. Qed.
