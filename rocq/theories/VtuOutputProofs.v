From Coq Require Import Reals String List Ascii Arith Bool Decimal DecimalString DecimalNat Lia Lra.
From Verif Require Import RVec VtuOutput VtuOutputSpec.
Import ListNotations.
Local Open Scope R_scope.

(** ** The selection *)
Lemma loop_spec eps f : forall vs above below, (above = 0 \/ below = 0)%nat ->
  vertex_loop eps f vs above below = true <->
  ((0 < above)%nat \/ exists v, In v vs /\ - (100 * eps) <= f v) /\
  ((0 < below)%nat \/ exists v, In v vs /\ f v <= 100 * eps) /\ vs <> [].
Proof.
  induction vs as [|v vs IH]; intros above below Hz; cbn [vertex_loop].
  - split; [discriminate|]. intros (_ & _ & E). congruence.
  - set (a' := if Rge_dec (f v) (0 - 100 * eps) then S above else above).
    set (b' := if Rle_dec (f v) (0 + 100 * eps) then S below else below).
    assert (Ha : (0 < a')%nat <-> (0 < above)%nat \/ - (100 * eps) <= f v).
    { unfold a'. destruct (Rge_dec (f v) (0 - 100 * eps)); split; intros Q; [right; lra|lia|left; exact Q|destruct Q; [assumption|lra]]. }
    assert (Hb : (0 < b')%nat <-> (0 < below)%nat \/ f v <= 100 * eps).
    { unfold b'. destruct (Rle_dec (f v) (0 + 100 * eps)); split; intros Q; [right; lra|lia|left; exact Q|destruct Q; [assumption|lra]]. }
    assert (Ea : ((0 < above)%nat \/ exists x, In x (v :: vs) /\ - (100 * eps) <= f x) <-> ((0 < a')%nat \/ exists x, In x vs /\ - (100 * eps) <= f x)).
    { rewrite Ha. split.
      - intros [H|(x & [<-|H] & Q)]; [tauto|tauto|right; eauto].
      - intros [[H|H]|(x & H & Q)]; [tauto| |]; right; eexists; (split; [|eassumption]); [left; reflexivity|right; exact H]. }
    assert (Eb : ((0 < below)%nat \/ exists x, In x (v :: vs) /\ f x <= 100 * eps) <-> ((0 < b')%nat \/ exists x, In x vs /\ f x <= 100 * eps)).
    { rewrite Hb. split.
      - intros [H|(x & [<-|H] & Q)]; [tauto|tauto|right; eauto].
      - intros [[H|H]|(x & H & Q)]; [tauto| |]; right; eexists; (split; [|eassumption]); [left; reflexivity|right; exact H]. }
    rewrite Ea, Eb. destruct ((0 <? a')%nat && (0 <? b')%nat) eqn:E.
    + apply andb_true_iff in E. rewrite !Nat.ltb_lt in E. split; [|reflexivity]. intros _. split; [tauto|]. split; [tauto|discriminate].
    + apply andb_false_iff in E. rewrite !Nat.ltb_ge in E.
      assert (Hz' : (a' = 0 \/ b' = 0)%nat) by lia. rewrite (IH a' b' Hz'). split; [intros (A & B & C); split; [exact A|split; [exact B|discriminate]]|].
      intros (A & B & _). split; [exact A|]. split; [exact B|]. intros ->.
      destruct A as [A|(x & [] & _)], B as [B|(x & [] & _)]. lia.
Qed.

Lemma C134_selected_proof : forall eps fs c,
  selected eps fs c = true <->
  is_active c = true /\ is_artificial c = false /\
  exists f v v', In f fs /\ In v (vertices c) /\ In v' (vertices c) /\ - (100 * eps) <= f v /\ f v' <= 100 * eps.
Proof.
  intros eps fs c. unfold selected. destruct (is_active c), (is_artificial c); cbn [negb orb]; try (split; [discriminate|intros (A & B & _); congruence]).
  induction fs as [|f fs IH].
  - split; [discriminate|]. intros (_ & _ & f & _ & _ & [] & _).
  - destruct (vertex_loop eps f (vertices c) 0 0) eqn:E.
    + apply loop_spec in E; [|left; reflexivity]. destruct E as ([E|(v & V1 & V2)] & [F|(v' & W1 & W2)] & _); try lia.
      split; [|reflexivity]. intros _. split; [reflexivity|]. split; [reflexivity|]. exists f, v, v'. split; [left; reflexivity|]. auto.
    + rewrite IH. split.
      * intros (_ & _ & f' & v & v' & H & Q). split; [reflexivity|]. split; [reflexivity|]. exists f', v, v'. split; [right; exact H|exact Q].
      * intros (_ & _ & f' & v & v' & [<-|H] & Q).
        -- exfalso. assert (X : vertex_loop eps f (vertices c) 0 0 = true); [|congruence]. apply loop_spec; [left; reflexivity|].
           destruct Q as (Q1 & Q2 & Q3 & Q4). split; [right; eauto|]. split; [right; eauto|]. intros Z. rewrite Z in Q1. destruct Q1.
        -- split; [reflexivity|]. split; [reflexivity|]. exists f', v, v'. auto.
Qed.

(** ** Planes and convex cells *)
Lemma combination_dot dim a : forall ws vs, length ws = length vs ->
  dot dim a (combination ws vs) = fold_right Rplus 0 (map (fun p => fst p * dot dim a (snd p)) (List.combine ws vs)).
Proof.
  assert (Z : forall n (b : vec), rsum n (fun k => b k * 0) = 0) by (induction n; intros b; cbn [rsum]; [reflexivity|rewrite IHn; ring]).
  induction ws as [|w ws IH]; intros [|v vs] E; try discriminate.
  - cbn. unfold dot. apply Z.
  - cbn [List.combine map fold_right fst snd]. rewrite <- IH by (injection E; auto). unfold dot. cbn [combination].
    clear. induction dim as [|n IHn]; cbn [rsum]; [ring|]. rewrite IHn. ring.
Qed.
Lemma dot_ext_r dim a x y : (forall k, (k < dim)%nat -> x k = y k) -> dot dim a x = dot dim a y.
Proof. intros H. unfold dot. induction dim as [|n IH]; cbn [rsum]; [reflexivity|]. rewrite IH, H by (intros; try apply H; lia). reflexivity. Qed.

Lemma average_bounds (g : vec -> R) : forall ws vs, length ws = length vs -> Forall (fun w => 0 <= w) ws -> 0 < sum_of ws ->
  let s := fold_right Rplus 0 (map (fun p => fst p * g (snd p)) (List.combine ws vs)) in
  (exists v, In v vs /\ s <= sum_of ws * g v) /\ (exists v, In v vs /\ sum_of ws * g v <= s).
Proof.
  induction ws as [|w ws IH]; intros [|v vs] E Hn Hs; try discriminate; [unfold sum_of in Hs; cbn in Hs; lra|].
  injection E as E. inversion Hn as [|? ? Hw Hn']; subst. cbn [List.combine map fold_right fst snd]. unfold sum_of in *. cbn [fold_right] in *.
  assert (P : 0 <= fold_right Rplus 0 ws).
  { clear -Hn'. induction Hn'; cbn; lra. }
  destruct (Rle_lt_or_eq_dec _ _ P) as [P1|P1].
  - destruct (IH vs E Hn' P1) as [(x & X1 & X2) (y & Y1 & Y2)]. set (r := fold_right Rplus 0 (map _ (List.combine ws vs))) in *. clearbody r.
    set (q := fold_right Rplus 0 ws) in *. split.
    + destruct (Rle_dec (g v) (g x)).
      * exists x. split; [right; exact X1|]. nra.
      * exists v. split; [left; reflexivity|]. nra.
    + destruct (Rle_dec (g y) (g v)).
      * exists y. split; [right; exact Y1|]. nra.
      * exists v. split; [left; reflexivity|]. nra.
  - assert (Z : fold_right Rplus 0 (map (fun p => fst p * g (snd p)) (List.combine ws vs)) = 0).
    { clear -E Hn' P1. revert vs E. induction Hn' as [|w ws Hw Hn' IH]; intros [|v vs] E; try discriminate; [reflexivity|]. cbn in *.
      assert (0 <= fold_right Rplus 0 ws) by (clear -Hn'; induction Hn'; cbn; lra).
      rewrite IH by (try lra; injection E; auto). replace w with 0 by lra. ring. }
    rewrite Z, <- P1. split; exists v; (split; [left; reflexivity|]); lra.
Qed.

Lemma combination_zero : forall m vs k, combination (repeat 0 m) vs k = 0.
Proof. induction m as [|m IH]; intros [|v vs] k; cbn; try reflexivity. rewrite IH. ring. Qed.
Lemma sum_zero m : sum_of (repeat 0 m) = 0.
Proof. unfold sum_of. induction m; cbn; [reflexivity|rewrite IHm; ring]. Qed.
Lemma hull_vertex dim vs v : In v vs -> hull dim vs v.
Proof.
  intros H. enough (G : exists ws, length ws = length vs /\ Forall (fun w => 0 <= w) ws /\ sum_of ws = 1 /\ forall k, combination ws vs k = v k).
  { destruct G as (ws & A & B & C & D). exists ws. repeat (split; [assumption|]). intros k _. symmetry. apply D. }
  induction vs as [|x vs IH]; [destruct H|]. destruct H as [<-|H].
  - exists (1 :: repeat 0 (length vs)). split; [cbn; rewrite repeat_length; reflexivity|]. split.
    + constructor; [lra|]. apply Forall_forall. intros w Hw. apply repeat_spec in Hw. lra.
    + split; [change (1 + sum_of (repeat 0 (length vs)) = 1); rewrite sum_zero; ring|]. intros k. cbn [combination]. rewrite combination_zero. ring.
  - destruct (IH H) as (ws & A & B & C & D). exists (0 :: ws). split; [cbn; rewrite A; reflexivity|]. split; [constructor; [lra|exact B]|].
    split; [change (0 + sum_of ws = 1); lra|]. intros k. cbn [combination]. rewrite D. ring.
Qed.
Lemma hull_segment dim vs x y t : hull dim vs x -> hull dim vs y -> 0 <= t <= 1 -> hull dim vs (fun k => (1 - t) * x k + t * y k).
Proof.
  intros (wx & A & B & C & D) (wy & A' & B' & C' & D') Ht.
  exists (map (fun p => (1 - t) * fst p + t * snd p) (List.combine wx wy)).
  assert (L : length (List.combine wx wy) = length vs) by (rewrite combine_length; lia).
  split; [rewrite map_length; exact L|]. split.
  - rewrite Forall_forall in *. intros w Hw. apply in_map_iff in Hw. destruct Hw as ([p q] & <- & Hpq). cbn [fst snd].
    pose proof (B p (in_combine_l _ _ _ _ Hpq)). pose proof (B' q (in_combine_r _ _ _ _ Hpq)). nra.
  - split.
    + transitivity ((1 - t) * sum_of wx + t * sum_of wy); [|rewrite C, C'; ring]. clear -A A'.
      assert (E : length wx = length wy) by lia. clear A A'. revert wy E. unfold sum_of. induction wx as [|p wx IH]; intros [|q wy] E; try discriminate; cbn; [ring|].
      rewrite IH by (injection E; auto). ring.
    + intros k Hk. rewrite D, D' by exact Hk. clear -A A'. revert wx wy A A'. induction vs as [|v vs IH]; intros [|p wx] [|q wy] A A'; try discriminate; cbn; [ring|].
      rewrite <- IH by (try (injection A; auto); injection A'; auto). ring.
Qed.
Lemma plane_segment dim c a x y t : plane dim c a (fun k => (1 - t) * x k + t * y k) = (1 - t) * plane dim c a x + t * plane dim c a y.
Proof. unfold plane, dot. induction dim as [|n IH]; cbn [rsum]; [ring|]. lra. Qed.

Lemma C134_plane_proof : forall eps dim c a cl,
  0 <= eps -> is_active cl = true -> is_artificial cl = false ->
  selected eps [plane dim c a] cl = true <->
  exists x, hull dim (vertices cl) x /\ Rabs (plane dim c a x) <= 100 * eps.
Proof.
  intros eps dim c a cl He Ha Hb. rewrite C134_selected_proof. split.
  - intros (_ & _ & f & v & v' & [<-|[]] & V & V' & P & Q). set (f := plane dim c a) in *.
    destruct (Rle_dec (f v) (100 * eps)) as [L|L]; [exists v; split; [apply hull_vertex, V|apply Rabs_le; lra]|].
    destruct (Rle_dec (- (100 * eps)) (f v')) as [L'|L']; [exists v'; split; [apply hull_vertex, V'|apply Rabs_le; lra]|].
    set (t := f v / (f v - f v')).
    assert (Ht : 0 <= t <= 1).
    { unfold t. split; [apply Rmult_le_pos; [lra|apply Rlt_le, Rinv_0_lt_compat; lra]|]. apply (Rmult_le_reg_r (f v - f v')); [lra|].
      unfold Rdiv. rewrite Rmult_assoc, Rinv_l by lra. lra. }
    exists (fun k => (1 - t) * v k + t * v' k). split; [apply hull_segment; [apply hull_vertex, V|apply hull_vertex, V'|exact Ht]|].
    unfold f at 1. rewrite plane_segment. fold f. replace ((1 - t) * f v + t * f v') with 0 by (unfold t; field; lra). rewrite Rabs_R0. lra.
  - intros (x & (ws & A & B & C & D) & H). split; [exact Ha|]. split; [exact Hb|].
    destruct (average_bounds (dot dim a) ws (vertices cl) A B ltac:(lra)) as [(v & V1 & V2) (v' & W1 & W2)].
    rewrite <- combination_dot in V2, W2 by exact A. rewrite C in V2, W2.
    assert (E : plane dim c a x = c + dot dim a (combination ws (vertices cl))) by (unfold plane; rewrite (dot_ext_r dim a x _ D); reflexivity).
    assert (G : - (100 * eps) <= plane dim c a x <= 100 * eps).
    { unfold Rabs in H. destruct (Rcase_abs (plane dim c a x)); lra. }
    exists (plane dim c a), v, v'. split; [left; reflexivity|]. split; [exact V1|]. split; [exact W1|]. unfold plane in *. lra.
Qed.

Lemma C134_level_proof : forall eps fs cl (K : vec -> Prop),
  0 <= eps -> (forall v, In v (vertices cl) -> K v) ->
  (forall f v v', In f fs -> In v (vertices cl) -> In v' (vertices cl) -> joined K f v v') ->
  selected eps fs cl = true ->
  exists f x, In f fs /\ K x /\ Rabs (f x) <= 100 * eps.
Proof.
  intros eps fs cl K He HK HJ H. apply C134_selected_proof in H. destruct H as (_ & _ & f & v & v' & Hf & V & V' & P & Q). exists f.
  destruct (Rle_dec (f v) (100 * eps)) as [L|L]; [exists v; split; [exact Hf|]; split; [apply HK, V|apply Rabs_le; lra]|].
  destruct (Rle_dec (- (100 * eps)) (f v')) as [L'|L']; [exists v'; split; [exact Hf|]; split; [apply HK, V'|apply Rabs_le; lra]|].
  destruct (HJ f v v' Hf V V') as (g & G0 & G1 & GK & GC).
  destruct (IVT_cor (fun t => f (g t)) 0 1 GC ltac:(lra)) as (z & Hz & Ez); [cbv beta; rewrite G0, G1; nra|].
  exists (g z). split; [exact Hf|]. split; [apply GK, Hz|]. rewrite Ez, Rabs_R0. lra.
Qed.

(** A circle inside of the unit square. *)
Definition square : cell := {|
  vertices := [fun _ => 0; fun k => if (k =? 0)%nat then 1 else 0; fun k => if (k =? 0)%nat then 0 else 1; fun _ => 1];
  is_active := true; is_artificial := false |}.
Definition circle (x : vec) : R := (x 0%nat - 1 / 2) * (x 0%nat - 1 / 2) + (x 1%nat - 1 / 2) * (x 1%nat - 1 / 2) - 1 / 16.
Lemma C134_curved_refuted_proof : exists (f : vec -> R) cl x, is_active cl = true /\ is_artificial cl = false /\
  hull 2 (vertices cl) x /\ f x = 0 /\ forall eps, 0 <= eps < 1 / 1000 -> selected eps [f] cl = false.
Proof.
  exists circle, square, (fun k => if (k =? 0)%nat then 1 / 4 else 1 / 2). split; [reflexivity|]. split; [reflexivity|]. split; [|split].
  - exists [3 / 8; 1 / 8; 3 / 8; 1 / 8]. split; [reflexivity|]. split; [repeat constructor; lra|]. split; [unfold sum_of; cbn; lra|].
    intros [|[|k]] Hk; cbn; [lra|lra|lia].
  - unfold circle. cbn. lra.
  - intros eps He. apply Bool.not_true_is_false. intros H. apply C134_selected_proof in H.
    destruct H as (_ & _ & f & v & v' & [<-|[]] & _ & V' & _ & Q). cbn [vertices square] in V'. unfold circle in Q.
    destruct V' as [<-|[<-|[<-|[<-|[]]]]]; cbn in Q; lra.
Qed.

(** ** Ranks *)
Lemma C134_owner_proof : forall eps fs known shape owner ranks cells k,
  (forall k, known (owner k) k = true) -> (forall k, In (owner k) ranks) -> In k cells ->
  (exists f v v', In f fs /\ In v (shape k) /\ In v' (shape k) /\ - (100 * eps) <= f v /\ f v' <= 100 * eps) <->
  In k (flat_map (fun r => written eps fs known shape r cells) ranks).
Proof.
  intros eps fs known shape owner ranks cells k HO HR Hk. rewrite in_flat_map. split.
  - intros H. exists (owner k). split; [apply HR|]. apply filter_In. split; [exact Hk|]. apply C134_selected_proof. cbn. rewrite HO. split; [reflexivity|].
    split; [reflexivity|exact H].
  - intros (r & _ & H). apply filter_In in H. destruct H as [_ H]. apply C134_selected_proof in H. cbn in H. apply H.
Qed.
Lemma C134_twice_refuted_proof : exists eps fs known shape owner ranks cells,
  NoDup ranks /\ NoDup cells /\ (forall k, known (owner k) k = true) /\ (forall k, In (owner k) ranks) /\
  ~ NoDup (flat_map (fun r => written eps fs known shape r cells) ranks).
Proof.
  exists 0, [fun x => x 0%nat], (fun _ _ => true), (fun k => [fun _ => - (1); fun _ => INR k]), (fun k => if (k =? 0)%nat then 0%nat else 1%nat), [0; 1]%nat, [0; 1]%nat.
  split; [repeat constructor; simpl; intuition lia|]. split; [repeat constructor; simpl; intuition lia|]. split; [reflexivity|].
  split; [intros k; destruct (k =? 0)%nat; simpl; auto|].
  assert (E : forall r, written 0 [fun x : vec => x 0%nat] (fun _ _ => true) (fun k => [fun _ => - (1); fun _ => INR k]) r [0; 1]%nat = [0; 1]%nat).
  { intros r. unfold written. assert (G : forall k, selected 0 [fun x : vec => x 0%nat] {| vertices := [fun _ => - (1); fun _ => INR k]; is_active := true; is_artificial := false |} = true).
    { intros k. apply C134_selected_proof. split; [reflexivity|]. split; [reflexivity|]. exists (fun x => x 0%nat), (fun _ => INR k), (fun _ => - (1)).
      cbn [vertices]. split; [left; reflexivity|]. split; [right; left; reflexivity|]. split; [left; reflexivity|]. pose proof (pos_INR k). split; lra. }
    cbn [filter negb]. rewrite !G. reflexivity. }
  cbn [flat_map]. rewrite !E. cbn. intros H. inversion H as [|? ? N _]; subst. apply N. simpl. auto.
Qed.

(** ** Names *)
Definition digit (a : ascii) : Prop := In a ["0"; "1"; "2"; "3"; "4"; "5"; "6"; "7"; "8"; "9"]%char.
Lemma uint_digits u : Forall digit (list_ascii_of_string (NilEmpty.string_of_uint u)).
Proof. induction u; cbn; constructor; try assumption; unfold digit; cbn; tauto. Qed.
Lemma list_app a b : list_ascii_of_string (a ++ b)%string = list_ascii_of_string a ++ list_ascii_of_string b.
Proof. induction a as [|x a IH]; [reflexivity|]. cbn. rewrite IH. reflexivity. Qed.
Lemma list_inj a b : list_ascii_of_string a = list_ascii_of_string b -> a = b.
Proof. intros H. rewrite <- (string_of_list_ascii_of_string a), H. apply string_of_list_ascii_of_string. Qed.
Lemma padded_digits d n : Forall digit (list_ascii_of_string (decimal_padded d n)).
Proof.
  unfold decimal_padded. cbv zeta. rewrite list_app. apply Forall_app. split; [|apply uint_digits].
  unfold zeros. rewrite list_ascii_of_string_of_list_ascii. apply Forall_forall. intros x Hx. apply repeat_spec in Hx. subst. unfold digit. cbn. tauto.
Qed.
Lemma padded_uint m u : (zeros m ++ NilEmpty.string_of_uint u)%string = NilEmpty.string_of_uint (Nat.iter m D0 u).
Proof. induction m as [|m IH]; [reflexivity|]. change (zeros (S m)) with (String "0" (zeros m)). cbn. rewrite IH. reflexivity. Qed.
Lemma iter_zero m u : Nat.of_uint (Nat.iter m D0 u) = Nat.of_uint u.
Proof. induction m as [|m IH]; [reflexivity|]. exact IH. Qed.
Lemma padded_inj d n m : decimal_padded d n = decimal_padded d m -> n = m.
Proof.
  unfold decimal_padded. cbv zeta. rewrite !padded_uint. intros H. apply (f_equal NilEmpty.uint_of_string) in H. rewrite !NilEmpty.usu in H. injection H as H.
  apply (f_equal Nat.of_uint) in H. rewrite !iter_zero, !Unsigned.of_to in H. exact H.
Qed.
Lemma last_separator {A} (x : A) : forall l1 l2 d1 d2, ~ In x d1 -> ~ In x d2 -> l1 ++ x :: d1 = l2 ++ x :: d2 -> l1 = l2 /\ d1 = d2.
Proof.
  induction l1 as [|y l1 IH]; intros [|z l2] d1 d2 H1 H2 E; cbn in E.
  - injection E as E. auto.
  - injection E as <- E. subst d1. exfalso. apply H1. apply in_or_app. right. left. reflexivity.
  - injection E as -> E. subst d2. exfalso. apply H2. apply in_or_app. right. left. reflexivity.
  - injection E as -> E. destruct (IH l2 d1 d2 H1 H2 E) as [-> ->]. auto.
Qed.
Lemma name_parts a b n m : (a ++ "_" ++ decimal_padded 6 n ++ ".vtu" = b ++ "_" ++ decimal_padded 6 m ++ ".vtu")%string -> a = b /\ n = m.
Proof.
  intros H. apply (f_equal list_ascii_of_string) in H. rewrite !list_app in H. change (list_ascii_of_string "_") with ["_"%char] in H. cbn [app] in H.
  assert (D : forall k, ~ In "_"%char (list_ascii_of_string (decimal_padded 6 k) ++ list_ascii_of_string ".vtu")).
  { intros k Q. apply in_app_or in Q. destruct Q as [Q|Q].
    - pose proof (padded_digits 6 k) as P. rewrite Forall_forall in P. apply P in Q. unfold digit in Q. cbn in Q. repeat (destruct Q as [Q|Q]; [discriminate|]). destruct Q.
    - cbn in Q. repeat (destruct Q as [Q|Q]; [discriminate|]). destruct Q. }
  apply last_separator in H; [|apply D|apply D]. destruct H as [H1 H2]. apply list_inj in H1. apply app_inv_tail in H2. apply list_inj in H2. apply padded_inj in H2. auto.
Qed.
Lemma append_inj_l a b c : (a ++ b = a ++ c)%string -> b = c.
Proof. induction a as [|x a IH]; intros H; [exact H|]. cbn in H. injection H as H. apply IH, H. Qed.
Lemma append_assoc a b c : ((a ++ b) ++ c = a ++ (b ++ c))%string.
Proof. induction a as [|x a IH]; [reflexivity|]. cbn. rewrite IH. reflexivity. Qed.

Lemma names_aux : forall p base n1 n2 cycle1 cycle2 full1 full2 level1 level2 c1 c2 file,
  (n1 = solution_name base \/ n1 = analytic_name base) -> (n2 = solution_name base \/ n2 = analytic_name base) ->
  In (c1, Some file) (schedule_output p n1 cycle1 full1 level1) ->
  In (c2, Some file) (schedule_output p n2 cycle2 full2 level2) ->
  n1 = n2 /\ cycle1 = cycle2 /\ c1 = c2.
Proof.
  intros p base n1 n2 k1 k2 f1 f2 l1 l2 c1 c2 file H1 H2 I1 I2.
  assert (G : forall n k f l c, In (c, Some file) (schedule_output p n k f l) ->
     file = (n ++ (match c with all_cells => "" | near_levelsets => "-levelsets" end) ++ "_" ++ decimal_padded 6 k ++ ".vtu")%string).
  { clear H1 H2 I1 I2. intros n k f l c H. unfold schedule_output, full_name, levelset_name in H. destruct (use_mpi_io p).
    - destruct f, (l && negb (Nat.eqb (List.length (manifolds p)) 0)); cbn -[decimal_padded append] in H;
      repeat match goal with
      | Z : _ \/ _ |- _ => destruct Z
      | Z : False |- _ => destruct Z
      | Z : (_, _) = (_, _) |- _ => injection Z as <- <-
      end; reflexivity.
    - destruct f, (l && negb (Nat.eqb (List.length (manifolds p)) 0)); cbn -[decimal_padded append] in H;
      repeat match goal with Z : _ \/ _ |- _ => destruct Z | Z : False |- _ => destruct Z end; discriminate. }
  apply G in I1. apply G in I2. rewrite I1 in I2. clear G I1 file. rewrite <- !(append_assoc n1), <- !(append_assoc n2) in I2.
  apply name_parts in I2. destruct I2 as [E ->].
  destruct H1 as [->| ->], H2 as [->| ->], c1, c2; unfold solution_name, analytic_name in *;
    try (split; [reflexivity|split; reflexivity]); exfalso; rewrite !append_assoc in E; apply append_inj_l in E; discriminate.
Qed.


Lemma C134_names_proof : forall p base (an1 an2 : bool) cycle1 cycle2 full1 full2 level1 level2 c1 c2 file,
  In (c1, Some file) (schedule_output p (if an1 then analytic_name base else solution_name base) cycle1 full1 level1) ->
  In (c2, Some file) (schedule_output p (if an2 then analytic_name base else solution_name base) cycle2 full2 level2) ->
  an1 = an2 /\ cycle1 = cycle2 /\ c1 = c2.
Proof.
  intros p base an1 an2 k1 k2 f1 f2 l1 l2 c1 c2 file H1 H2.
  destruct (names_aux p base (if an1 then analytic_name base else solution_name base) (if an2 then analytic_name base else solution_name base) k1 k2 f1 f2 l1 l2 c1 c2 file ltac:(destruct an1; auto) ltac:(destruct an2; auto) H1 H2) as (E & -> & ->).
  split; [|auto]. destruct an1, an2; try reflexivity; exfalso; unfold analytic_name, solution_name in E; apply append_inj_l in E; discriminate E.
Qed.

Lemma append_length a b : String.length (a ++ b)%string = (String.length a + String.length b)%nat.
Proof. induction a as [|x a IH]; [reflexivity|]. cbn. rewrite IH. reflexivity. Qed.

Lemma padded_length d n : String.length (decimal_padded d n) = Nat.max d (String.length (NilEmpty.string_of_uint (Nat.to_uint n))).
Proof.
  unfold decimal_padded. cbv zeta. rewrite append_length. set (k := String.length (NilEmpty.string_of_uint (Nat.to_uint n))).
  assert (Z : forall m, String.length (zeros m) = m) by (induction m as [|m IH]; [reflexivity|]; change (zeros (S m)) with (String "0" (zeros m)); cbn; rewrite IH; reflexivity).
  rewrite Z. lia.
Qed.

(** File names have at least six digits, and more only if necessary. *)
Lemma C134_width_proof : forall p name cycle full level c file, In (c, Some file) (schedule_output p name cycle full level) ->
  String.length file = (String.length name + String.length (match c with all_cells => "" | near_levelsets => "-levelsets" end)%string +
    1 + Nat.max 6 (String.length (NilEmpty.string_of_uint (Nat.to_uint cycle))) + 4)%nat.
Proof.
  intros p name k f l c file H.
  assert (G : file = (name ++ (match c with all_cells => "" | near_levelsets => "-levelsets" end) ++ "_" ++ decimal_padded 6 k ++ ".vtu")%string).
  { unfold schedule_output, full_name, levelset_name in H. destruct (use_mpi_io p).
    - destruct f, (l && negb (Nat.eqb (List.length (manifolds p)) 0)); cbn -[decimal_padded append] in H;
      repeat match goal with
      | Z : _ \/ _ |- _ => destruct Z
      | Z : False |- _ => destruct Z
      | Z : (_, _) = (_, _) |- _ => injection Z as <- <-
      end; reflexivity.
    - destruct f, (l && negb (Nat.eqb (List.length (manifolds p)) 0)); cbn -[decimal_padded append] in H;
      repeat match goal with Z : _ \/ _ |- _ => destruct Z | Z : False |- _ => destruct Z end; discriminate. }
  rewrite G, !append_length, padded_length. change (String.length "_") with 1%nat. change (String.length ".vtu") with 4%nat. lia.
Qed.

Lemma C134_files_proof : forall p name cycle full level c f,
  In (c, f) (schedule_output p name cycle full level) <->
  (c = all_cells /\ full = true /\ f = full_name p name cycle) \/
  (c = near_levelsets /\ level = true /\ manifolds p <> [] /\ f = levelset_name p name cycle).
Proof.
  intros p name cycle full level c f. unfold schedule_output. rewrite in_app_iff.
  destruct full, level, (manifolds p) as [|g l] eqn:E; cbn [andb negb List.length Nat.eqb In]; split; intuition (try congruence; try discriminate);
  match goal with H : (_, _) = (_, _) |- _ => injection H as <- <-; auto | _ => idtac end; intuition congruence.
Qed.
Lemma C134_files_ex_proof : forall f,
  schedule_output {| use_mpi_io := true; manifolds := [f] |} (solution_name "run") 12 true true =
  [(all_cells, Some "run-solution_000012.vtu"%string); (near_levelsets, Some "run-solution-levelsets_000012.vtu"%string)].
Proof. reflexivity. Qed.
Lemma C134_plane_ex_proof : forall eps, 0 <= eps < 1 / 1000 ->
  selected eps [plane 2 (- (1 / 3)) (fun k => if (k =? 0)%nat then 1 else 0)] square = true /\
  selected eps [plane 2 (- (3)) (fun k => if (k =? 0)%nat then 1 else 0)] square = false.
Proof.
  intros eps He. split.
  - apply C134_selected_proof. split; [reflexivity|]. split; [reflexivity|].
    eexists _, (fun _ => 1), (fun _ => 0). split; [left; reflexivity|]. cbn [vertices square In]. split; [tauto|]. split; [tauto|].
    unfold plane, dot. cbn. lra.
  - apply Bool.not_true_is_false. intros H. apply C134_selected_proof in H.
    destruct H as (_ & _ & f & v & v' & [<-|[]] & V & _ & P & _). unfold plane, dot in P.
    cbn [vertices square In] in V. destruct V as [<-|[<-|[<-|[<-|[]]]]]; cbn in P; lra.
Qed.
(** A parabola through the square. *)
Lemma C134_level_ex_proof : forall v v', In v (vertices square) -> In v' (vertices square) ->
  joined (fun _ => True) (fun x => x 1%nat - x 0%nat * x 0%nat - 1 / 3) v v' /\
  selected 0 [fun x => x 1%nat - x 0%nat * x 0%nat - 1 / 3] square = true.
Proof.
  intros v v' _ _. split.
  - exists (fun t k => v k + t * (v' k - v k)). split; [|split; [|split; [intros; exact Logic.I|]]].
    + apply FunctionalExtensionality.functional_extensionality. intros k. ring.
    + apply FunctionalExtensionality.functional_extensionality. intros k. ring.
    + intros t. apply derivable_continuous_pt. apply derivable_pt_minus; [apply derivable_pt_minus|apply derivable_pt_const].
      * apply derivable_pt_plus; [apply derivable_pt_const|]. apply derivable_pt_mult; [apply derivable_pt_id|apply derivable_pt_const].
      * apply derivable_pt_mult; (apply derivable_pt_plus; [apply derivable_pt_const|]; apply derivable_pt_mult; [apply derivable_pt_id|apply derivable_pt_const]).
  - apply C134_selected_proof. split; [reflexivity|]. split; [reflexivity|].
    eexists _, (fun k => if (k =? 0)%nat then 0 else 1), (fun _ => 0). split; [left; reflexivity|]. cbn [vertices square In]. split; [tauto|]. split; [tauto|].
    cbn. lra.
Qed.
