(** * Proofs: the choice by name *)
From Coq Require Import String List Bool Arith Lia.
From Verif Require Import Selection SelectionSpec.
Import ListNotations.
Local Open Scope string_scope.

(** ** The set *)
Lemma emplace_in x o s : (forall a, In a s -> e_addr a <> e_addr o) ->
  In x (emplace o s) <-> x = o \/ In x s.
Proof.
  induction s as [|a s IH]; intros H; cbn [emplace].
  - cbn. intuition auto.
  - destruct (Nat.ltb_spec (e_addr o) (e_addr a)).
    + cbn. intuition auto.
    + destruct (Nat.eqb_spec (e_addr o) (e_addr a)) as [E|E].
      * exfalso. apply (H a); [left; reflexivity|symmetry; exact E].
      * cbn [In]. rewrite IH.
        -- intuition auto.
        -- intros b Hb. apply H. right; exact Hb.
Qed.

Lemma fold_in l : forall s x, NoDup (map e_addr l) ->
  (forall a b, In a s -> In b l -> e_addr a <> e_addr b) ->
  In x (fold_left (fun s o => emplace o s) l s) <-> In x s \/ In x l.
Proof.
  induction l as [|o l IH]; intros s x Hn Hd; cbn [fold_left].
  - cbn. intuition auto.
  - inversion Hn as [|? ? Hno Hn']; subst.
    assert (Hs : forall a, In a s -> e_addr a <> e_addr o) by (intros a Ha; apply Hd; [exact Ha|left; reflexivity]).
    rewrite IH; [|exact Hn'|].
    + rewrite emplace_in by exact Hs. cbn [In]. intuition auto.
    + intros a b Ha Hb. apply emplace_in in Ha; [|exact Hs]. destruct Ha as [->|Ha].
      * intros E. apply Hno. rewrite E. apply in_map. exact Hb.
      * apply Hd; [exact Ha|right; exact Hb].
Qed.

Lemma populate_in l x : NoDup (map e_addr l) -> In x (populate l) <-> In x l.
Proof.
  intros H. unfold populate. rewrite fold_in; [cbn; intuition auto|exact H|intros a b []].
Qed.

Lemma pick_some s c o : pick s c = Some o -> In o s /\ e_name o = c.
Proof.
  induction s as [|a s IH]; cbn [pick]; [discriminate|].
  destruct (String.eqb_spec (e_name a) c) as [E|E].
  - intros H; injection H as <-. split; [left; reflexivity|exact E].
  - intros H. destruct (IH H). split; [right; assumption|assumption].
Qed.
Lemma pick_none s c : pick s c = None <-> (forall o, In o s -> e_name o <> c).
Proof.
  induction s as [|a s IH]; cbn [pick].
  - split; [intros _ o []|reflexivity].
  - destruct (String.eqb_spec (e_name a) c) as [E|E].
    + split; [discriminate|]. intros H. exfalso. apply (H a); [left; reflexivity|exact E].
    + rewrite IH. split.
      * intros H o [<-|Ho]; [exact E|exact (H o Ho)].
      * intros H o Ho. apply H. right; exact Ho.
Qed.

(** ** The objects of a library *)
Lemma objects_names names : forall k addrs, length addrs = length names ->
  map e_name (objects_from k names addrs) = names /\ map e_addr (objects_from k names addrs) = addrs.
Proof.
  induction names as [|n names IH]; intros k [|a addrs]; cbn; try discriminate; [auto|].
  intros H. destruct (IH (S k) addrs ltac:(lia)) as [-> ->]. auto.
Qed.
Lemma objects_nth names : forall k addrs o, length addrs = length names ->
  In o (objects_from k names addrs) ->
  k <= e_class o /\ nth_error names (e_class o - k) = Some (e_name o).
Proof.
  induction names as [|n names IH]; intros k [|a addrs] o; cbn [objects_from length In]; try tauto; try discriminate.
  intros HL [<-|H].
  - cbn [e_class e_name]. rewrite Nat.sub_diag. cbn. auto.
  - destruct (IH (S k) addrs o ltac:(lia) H) as [H1 H2]. split; [lia|].
    replace (e_class o - k) with (S (e_class o - S k)) by lia. exact H2.
Qed.
Lemma objects_has names : forall k addrs i n, length addrs = length names ->
  nth_error names i = Some n ->
  exists o, In o (objects_from k names addrs) /\ e_class o = k + i /\ e_name o = n.
Proof.
  induction names as [|m names IH]; intros k [|a addrs] i n; cbn [objects_from length];
    try discriminate; [destruct i; discriminate|].
  intros HL H. destruct i as [|i]; cbn in H.
  - injection H as <-. eexists. split; [left; reflexivity|]. cbn. split; [lia|reflexivity].
  - destruct (IH (S k) addrs i n ltac:(lia) H) as (o & H1 & H2 & H3).
    exists o. split; [right; exact H1|]. split; [lia|exact H3].
Qed.

Lemma pick_unknown names addrs choice :
  length addrs = length names -> NoDup addrs ->
  pick (populate (objects names addrs)) choice = None <-> ~ In choice names.
Proof.
  intros HL HA. destruct (objects_names names 0 addrs HL) as [HN HAd].
  assert (HU : NoDup (map e_addr (objects names addrs))) by (unfold objects; rewrite HAd; exact HA).
  rewrite pick_none. split.
  - intros H Hin. destruct (In_nth_error _ _ Hin) as [i Hi].
    destruct (objects_has names 0 addrs i choice HL Hi) as (o & H1 & _ & H3).
    apply (H o); [|exact H3]. apply (populate_in _ _ HU). exact H1.
  - intros H o Ho E. apply (populate_in _ _ HU) in Ho.
    destruct (objects_nth names 0 addrs o HL Ho) as [_ H2]. apply H. rewrite <- E.
    eapply nth_error_In; exact H2.
Qed.

Lemma pick_selects names addrs choice i :
  length addrs = length names -> NoDup addrs -> NoDup names ->
  (exists o, pick (populate (objects names addrs)) choice = Some o /\ e_class o = i)
  <-> nth_error names i = Some choice.
Proof.
  intros HL HA HNo. destruct (objects_names names 0 addrs HL) as [HN HAd].
  assert (HU : NoDup (map e_addr (objects names addrs))) by (unfold objects; rewrite HAd; exact HA).
  assert (HP : forall o, In o (populate (objects names addrs)) -> nth_error names (e_class o) = Some (e_name o)).
  { intros o Ho. apply (populate_in _ _ HU) in Ho.
    destruct (objects_nth names 0 addrs o HL Ho) as [_ H2]. rewrite Nat.sub_0_r in H2. exact H2. }
  split.
  - intros (o & Ho & <-). destruct (pick_some _ _ _ Ho) as [H1 <-]. apply HP; exact H1.
  - intros Hi. destruct (pick (populate (objects names addrs)) choice) as [o|] eqn:E.
    + exists o. split; [reflexivity|]. destruct (pick_some _ _ _ E) as [H1 H2]. apply HP in H1.
      rewrite H2 in H1. apply (proj1 (NoDup_nth_error names) HNo).
      * apply nth_error_Some. rewrite H1. discriminate.
      * rewrite H1, Hi. reflexivity.
    + exfalso. apply pick_unknown in E; [|exact HL|exact HA]. apply E. eapply nth_error_In; exact Hi.
Qed.

(** ** The libraries that are shipped *)
Fixpoint nodupb (l : list string) : bool :=
  match l with [] => true | a :: r => (negb (existsb (String.eqb a) r) && nodupb r)%bool end.
Lemma nodupb_ok l : nodupb l = true -> NoDup l.
Proof.
  induction l as [|a r IH]; cbn; [constructor|].
  intros H. apply andb_prop in H as [H1 H2]. constructor; [|exact (IH H2)].
  intros Hin. apply negb_true_iff in H1.
  assert (existsb (String.eqb a) r = true) by (apply existsb_exists; exists a; split; [exact Hin|apply String.eqb_refl]).
  congruence.
Qed.
Lemma shipped_ok l d : shipped l d -> NoDup l /\ In d l.
Proof.
  intros H. split.
  - apply nodupb_ok. destruct H; try reflexivity. destruct eospac; reflexivity.
  - destruct H; try destruct eospac; cbn; tauto.
Qed.

Lemma libraries names default addrs : shipped names default ->
  length addrs = length names -> NoDup addrs ->
  (forall i n, nth_error names i = Some n ->
     exists o, pick (populate (objects names addrs)) n = Some o /\ e_class o = i)
  /\ (exists o, pick (populate (objects names addrs)) default = Some o).
Proof.
  intros H HL HA. destruct (shipped_ok _ _ H) as [HN HD]. split.
  - intros i n Hi. apply pick_selects; assumption.
  - destruct (pick (populate (objects names addrs)) default) eqn:E; [eexists; reflexivity|].
    exfalso. apply pick_unknown in E; auto.
Qed.

(** ** Reading files *)
Lemma callback_idem o : callback (callback o) = callback o.
Proof. unfold callback. destruct (e_parsed o) eqn:E; cbn; [reflexivity|rewrite E; reflexivity]. Qed.
Lemma callback_set a o : callback (set_raw a (callback o)) = callback (set_raw a o).
Proof. unfold callback, set_raw. destruct (e_parsed o) eqn:E; cbn; rewrite ?E; reflexivity. Qed.
Lemma callback_name o : e_name (callback o) = e_name o.
Proof. unfold callback; destruct (e_parsed o); reflexivity. Qed.
Lemma callback_addr o : e_addr (callback o) = e_addr o.
Proof. unfold callback; destruct (e_parsed o); reflexivity. Qed.
Lemma callback_touch addr l : map callback (touch addr l) = map callback l.
Proof.
  unfold touch. rewrite map_map. apply map_ext. intros o.
  destruct (Nat.eqb (e_addr o) addr); [apply callback_idem|reflexivity].
Qed.

Definition set_all (files : list assignment) (o : entry) : entry := fold_left (fun o a => set_raw a o) files o.
Lemma set_all_snoc files a o : set_all (files ++ [a])%list o = set_raw a (set_all files o).
Proof. unfold set_all. rewrite fold_left_app. reflexivity. Qed.
Lemma set_all_shape files : forall o,
  e_addr (set_all files o) = e_addr o /\ e_class (set_all files o) = e_class o /\
  e_name (set_all files o) = e_name o /\ e_parsed (set_all files o) = e_parsed o /\
  e_formula (set_all files o) = e_formula o /\ e_raw (set_all files o) = expression files o.
Proof.
  induction files as [|a files IH]; intros o; [cbn; tauto|].
  change (set_all (a :: files) o) with (set_all files (set_raw a o)).
  destruct (IH (set_raw a o)) as (H1 & H2 & H3 & H4 & H5 & H6).
  rewrite H1, H2, H3, H4, H5, H6. repeat split; try reflexivity.
  unfold expression. cbn [map last_given set_raw e_raw e_name].
  destruct (a_raw a (e_name o)); reflexivity.
Qed.

Lemma last_given_snoc l : forall d x, last_given d (l ++ [x])%list = match x with Some v => v | None => last_given d l end.
Proof. induction l as [|[v|] l IH]; intros d x; cbn; [destruct x; reflexivity|apply IH|apply IH]. Qed.
Lemma chosen_snoc files a : chosen (files ++ [a]) = match a_choice a with Some c => c | None => chosen files end.
Proof. unfold chosen. rewrite map_app. apply last_given_snoc. Qed.

Definition title_of (o : entry) : string := "Scalar conservation equation (" ++ e_name o ++ ": " ++ e_formula o ++ ")".
Definition Inv (objs : list entry) (files : list assignment) (s : system) : Prop :=
  s_list s = map (fun o => callback (set_all files o)) (populate objs) /\
  s_choice s = chosen files /\
  exists o, In o (s_list s) /\ s_selected s = Some (e_addr o) /\ e_name o = s_choice s /\ s_title s = title_of o.

Lemma populate_functions_spec s s' : populate_functions s = Some s' ->
  s_choice s' = s_choice s /\ map callback (s_list s') = map callback (s_list s) /\
  exists o, In o (s_list s) /\ In (callback o) (s_list s') /\ s_selected s' = Some (e_addr o) /\ e_name o = s_choice s /\
    s_title s' = title_of (callback o).
Proof.
  unfold populate_functions. destruct (pick (s_list s) (s_choice s)) as [o|] eqn:E; [|discriminate].
  intros H. apply (f_equal (fun x => match x with Some y => y | None => s end)) in H. cbn beta iota in H. subst s'. cbn [s_choice s_list s_selected s_title].
  destruct (pick_some _ _ _ E) as [H1 H2].
  split; [reflexivity|]. split; [apply callback_touch|]. exists o.
  split; [exact H1|]. split.
  { unfold touch. apply in_map_iff. exists o. rewrite Nat.eqb_refl. auto. }
  split; [reflexivity|]. split; [exact H2|]. unfold title_of. rewrite callback_name. reflexivity.
Qed.

Lemma inv_construct objs s : construct objs = Some s -> Inv objs [] s.
Proof.
  intros H. unfold construct in H. pose proof (populate_functions_spec _ _ H) as (Hc & _ & o & H1 & H2 & H3 & H4 & H5).
  cbn [s_choice s_list] in *. unfold Inv. split; [|split].
  - unfold populate_functions in H. cbn [s_choice s_list] in H.
    destruct (pick (map callback (populate objs)) "burgers") as [o'|]; [|discriminate].
    apply (f_equal (fun x => match x with Some y => y | None => s end)) in H. cbn beta iota in H. subst s. cbn [s_list].
    unfold touch. rewrite map_map. apply map_ext. intros a. change (set_all [] a) with a.
    destruct (Nat.eqb (e_addr (callback a)) (e_addr o')); [apply callback_idem|reflexivity].
  - rewrite Hc. reflexivity.
  - exists (callback o). rewrite callback_addr, callback_name. repeat split; auto. congruence.
Qed.

Lemma inv_parse objs files s a s' : Inv objs files s -> parse a s = Some s' -> Inv objs (files ++ [a]) s'.
Proof.
  intros (HL & HC & _) H. unfold parse in H.
  destruct (populate_functions _) as [s2|] eqn:E in H; [|discriminate].
  apply (f_equal (fun x => match x with Some y => y | None => s end)) in H. cbn beta iota in H. subst s'.
  apply populate_functions_spec in E as (Hc & Hl & o & H1 & H2 & H3 & H4 & H5).
  cbn [s_choice s_list] in *. unfold Inv. cbn [s_choice s_list s_selected s_title]. split; [|split].
  - rewrite Hl, HL. rewrite !map_map. apply map_ext. intros x. rewrite callback_set, set_all_snoc. reflexivity.
  - rewrite Hc, chosen_snoc, HC. reflexivity.
  - exists (callback o). rewrite callback_addr, callback_name. split; [|repeat split; auto; congruence].
    rewrite <- callback_idem. apply in_map. exact H2.
Qed.

Lemma inv_parse_all objs l : forall files s s', Inv objs files s -> parse_all l s = Some s' -> Inv objs (files ++ l) s'.
Proof.
  induction l as [|a l IH]; intros files s s' HI H; cbn in H.
  - injection H as <-. rewrite app_nil_r. exact HI.
  - destruct (parse a s) as [s1|] eqn:E; [|discriminate].
    replace (files ++ a :: l)%list with ((files ++ [a]) ++ l)%list by (rewrite <- app_assoc; reflexivity).
    eapply IH; [|exact H]. eapply inv_parse; eassumption.
Qed.

Lemma callback_formula files o : e_formula (callback (set_all files o)) = formula files o.
Proof.
  destruct (set_all_shape files o) as (H1 & H2 & H3 & H4 & H5 & H6).
  unfold callback, formula. rewrite H4. destruct (e_parsed o); cbn [e_formula]; [rewrite H6; reflexivity|exact H5].
Qed.

Lemma parse_selects objs files s0 s :
  NoDup (map e_addr objs) -> construct objs = Some s0 -> parse_all files s0 = Some s ->
  exists o, In o objs /\ e_name o = chosen files /\ s_selected s = Some (e_addr o) /\
    s_title s = "Scalar conservation equation (" ++ chosen files ++ ": " ++ formula files o ++ ")".
Proof.
  intros HN H0 H. apply inv_construct in H0.
  pose proof (inv_parse_all _ _ _ _ _ H0 H) as (HL & HC & o & H1 & H2 & H3 & H4). cbn [app] in *.
  rewrite HL in H1. apply in_map_iff in H1 as (x & <- & Hx). apply (populate_in _ _ HN) in Hx.
  destruct (set_all_shape files x) as (A1 & A2 & A3 & A4 & A5 & A6).
  rewrite callback_addr, A1 in H2. rewrite callback_name, A3, HC in H3. exists x.
  split; [exact Hx|]. split; [exact H3|]. split; [exact H2|].
  rewrite H4. unfold title_of. rewrite callback_name, A3, H3, callback_formula. reflexivity.
Qed.

Lemma parse_fails objs files s0 s a :
  NoDup (map e_addr objs) -> construct objs = Some s0 -> parse_all files s0 = Some s ->
  parse a s = None <-> (forall o, In o objs -> e_name o <> chosen (files ++ [a])).
Proof.
  intros HN H0 H. apply inv_construct in H0.
  pose proof (inv_parse_all _ _ _ _ _ H0 H) as (HL & HC & _). cbn [app] in *.
  unfold parse, populate_functions. cbn [s_choice s_list].
  rewrite chosen_snoc. rewrite <- HC.
  set (c := match a_choice a with Some c => c | None => s_choice s end).
  transitivity (pick (map (set_raw a) (s_list s)) c = None).
  - destruct (pick (map (set_raw a) (s_list s)) c); split; intros; congruence.
  - rewrite pick_none, HL. split.
    + intros Hf o Ho E. apply (Hf (set_raw a (callback (set_all files o)))).
      * apply in_map. apply (in_map (fun o => callback (set_all files o))). apply populate_in; assumption.
      * cbn [set_raw e_name]. rewrite callback_name. destruct (set_all_shape files o) as (_ & _ & -> & _). exact E.
    + intros Hf o Ho E. apply in_map_iff in Ho as (y & <- & Hy). apply in_map_iff in Hy as (x & <- & Hx).
      apply (populate_in _ _ HN) in Hx. apply (Hf x Hx).
      cbn [set_raw e_name] in E. rewrite callback_name in E. destruct (set_all_shape files x) as (_ & _ & H3 & _). congruence.
Qed.

(** ** Cases *)
Definition addrs3 : list nat := [30; 10; 20].
Lemma selects_case : length addrs3 = length fluxes /\ NoDup addrs3 /\ NoDup fluxes /\
  exists o, pick (populate (objects fluxes addrs3)) "kpp" = Some o /\ e_class o = 2 /\
    map e_name (populate (objects fluxes addrs3)) = ["function"; "kpp"; "burgers"].
Proof.
  split; [reflexivity|]. split; [|split; [apply nodupb_ok; reflexivity|]].
  - repeat constructor; cbn; intuition discriminate.
  - eexists. split; [reflexivity|]. split; reflexivity.
Qed.
(** If two classes shared a name, the addresses would decide. *)
Lemma duplicate_case : exists names a1 a2 c1 c2 o1 o2, length a1 = length names /\ length a2 = length names /\
  NoDup a1 /\ NoDup a2 /\ pick (populate (objects names a1)) "x" = Some o1 /\ e_class o1 = c1 /\
  pick (populate (objects names a2)) "x" = Some o2 /\ e_class o2 = c2 /\ c1 <> c2.
Proof.
  exists ["x"; "x"], [1; 2], [2; 1], 0, 1. do 2 eexists.
  split; [reflexivity|]. split; [reflexivity|].
  split; [repeat constructor; cbn; intuition discriminate|].
  split; [repeat constructor; cbn; intuition discriminate|].
  split; [reflexivity|]. split; [reflexivity|]. split; [reflexivity|]. split; [reflexivity|discriminate].
Qed.

Definition flux_objects : list entry :=
  [ {| e_addr := 30; e_class := 0; e_name := "burgers"; e_raw := ""; e_formula := "f(u)={0.5u^2}"; e_parsed := false |};
    {| e_addr := 10; e_class := 1; e_name := "function"; e_raw := "0.5*u*u"; e_formula := ""; e_parsed := true |};
    {| e_addr := 20; e_class := 2; e_name := "kpp"; e_raw := ""; e_formula := "f(u)={sin(u),cos(u)}"; e_parsed := false |} ].
Definition flux_file : assignment :=
  {| a_choice := Some "function"; a_raw := fun n => if String.eqb n "function" then Some "u*u*u" else None |}.
Lemma parse_case : exists s0 s, NoDup (map e_addr flux_objects) /\ construct flux_objects = Some s0 /\
  parse_all [flux_file] s0 = Some s /\ s_selected s = Some 10 /\
  s_title s = "Scalar conservation equation (function: f(u)={u*u*u})" /\
  s_title s0 = "Scalar conservation equation (burgers: f(u)={0.5u^2})".
Proof.
  do 2 eexists. split; [repeat constructor; cbn; intuition discriminate|].
  split; [reflexivity|]. split; [reflexivity|]. split; [reflexivity|]. split; reflexivity.
Qed.
Lemma fails_case : exists s0, construct flux_objects = Some s0 /\
  parse {| a_choice := Some "Burgers"; a_raw := fun _ => None |} s0 = None.
Proof. eexists. split; reflexivity. Qed.

Lemma unlisted : exists name, In name shallow_water_classes /\
  forall addrs, length addrs = length shallow_water_states -> NoDup addrs ->
    pick (populate (objects shallow_water_states addrs)) name = None.
Proof.
  exists "circular dam break". split; [left; reflexivity|]. intros addrs HL HA.
  apply pick_unknown; [exact HL|exact HA|]. cbn. intuition discriminate.
Qed.
Lemma eospac_name : exists name, In name (equations_of_state true) /\
  forall addrs, length addrs = length (equations_of_state false) -> NoDup addrs ->
    pick (populate (objects (equations_of_state false) addrs)) name = None.
Proof.
  exists "sesame". split; [cbn; tauto|]. intros addrs HL HA.
  apply pick_unknown; [exact HL|exact HA|]. cbn. intuition discriminate.
Qed.
Lemma libraries_case : exists addrs : list nat, shipped geometries "cylinder" /\ length addrs = length geometries /\ NoDup addrs.
Proof.
  exists (seq 5 9). split; [constructor|]. split; [reflexivity|apply seq_NoDup].
Qed.
