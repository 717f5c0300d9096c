(** FcmBasics.v — activation dispatch (C13), activation dictionaries (C02). *)
From Verif Require Import Base BaseFacts Num Functions Spec SortFacts Fcm.

Section Dispatch.
Context {F : Type} {N : Num F}.

Lemma forallb_keys_nil (a : args F) : forallb (fun k => str_mem k []) (dkeys a) = true -> a = [].
Proof. destruct a as [|[k v] a]; simpl; [auto|discriminate]. Qed.
Lemma forallb_keys_one k (a : args F) : NoDup (dkeys a) ->
  forallb (fun x => str_mem x [k]) (dkeys a) = true -> a = [] \/ exists v, a = [(k, v)].
Proof.
  intros HN H. destruct a as [|[k1 v1] [|[k2 v2] a]]; [now left| |].
  - right. simpl in H. rewrite orb_false_r, andb_true_r in H. apply String.eqb_eq in H. subst. eauto.
  - exfalso. simpl in H, HN. rewrite !orb_false_r, !andb_true_iff in H. destruct H as (H1 & H2 & _).
    apply String.eqb_eq in H1, H2. subst. inversion HN as [|? ? Hn _]; subst. simpl in Hn. tauto.
Qed.
Lemma forallb_keys_fuzzy (a : args F) : NoDup (dkeys a) ->
  forallb (fun x => str_mem x ["membership"; "val_list"]) (dkeys a) = true ->
  forall m v, dget a "membership" = Some m -> dget a "val_list" = Some v ->
  a = [("membership", m); ("val_list", v)] \/ a = [("val_list", v); ("membership", m)].
Proof.
  intros HN H m v Hm Hv.
  assert (K : forall x, In x (dkeys a) -> x = "membership" \/ x = "val_list").
  { intros x Hx. rewrite forallb_forall in H. specialize (H x Hx).
    apply str_mem_In in H. destruct H as [<-|[<-|[]]]; auto. }
  destruct a as [|[k1 v1] [|[k2 v2] [|[k3 v3] a]]].
  - discriminate Hm.
  - exfalso. revert Hm. cbn [dget]. destruct (String.eqb_spec "membership" k1) as [<-|]; intros Hm; [discriminate Hv|discriminate Hm].
  - destruct (K k1) as [->| ->]; [simpl; auto| |]; destruct (K k2) as [->| ->]; simpl; auto.
    + exfalso. inversion HN as [|? ? Hn _]; subst. simpl in Hn. tauto.
    + left. simpl in *. congruence.
    + right. simpl in *. congruence.
    + exfalso. inversion HN as [|? ? Hn _]; subst. simpl in Hn. tauto.
  - exfalso. simpl in HN. inversion HN as [|? ? Hn HN2]; subst. inversion HN2 as [|? ? Hn2 HN3]; subst.
    destruct (K k1) as [->| ->]; [simpl; auto| |]; destruct (K k2) as [->| ->]; simpl; auto;
    destruct (K k3) as [->| ->]; simpl in *; auto; tauto.
Qed.

Lemma kw_only_ok allowed (a : args F) u : kw_only allowed a = Ok u ->
  forallb (fun k => str_mem k allowed) (dkeys a) = true.
Proof. unfold kw_only. destruct (forallb _ _); [auto|discriminate]. Qed.

Lemma scal_dispatch k (a : args F) dflt (x : F) :
  NoDup (dkeys a) -> forallb (fun y => str_mem y [k]) (dkeys a) = true ->
  kw_scal a k dflt = Ok x ->
  (a = [] /\ x = dflt /\ process_function_args a = []) \/ process_function_args a = [x].
Proof.
  intros HN Hk H. destruct (forallb_keys_one k a HN Hk) as [->|[v ->]].
  - left. unfold kw_scal in H. simpl in H. injection H as ->. auto.
  - right. unfold kw_scal in H. simpl in H. rewrite String.eqb_refl in H.
    destruct v; try discriminate. injection H as ->.
    unfold process_function_args. simpl. now rewrite String.eqb_refl.
Qed.

Lemma dispatch_agree name fn id val (a : args F) y :
  get_function_by_name name = Some fn -> get_const_by_name name = Some id ->
  NoDup (dkeys a) ->
  (forall m v, dget a "membership" = Some (AVec m) -> dget a "val_list" = Some (AVec v) -> length m = length v) ->
  call_actv fn val a = Ok y ->
  exec_actv_function id val (process_function_args a) = Ok y.
Proof.
  intros Hf Hc HN HL H.
  assert (Hid : match fn with
          | ABistate => id = FUNC_BISTATE | AThreestate => id = FUNC_THREESTATE
          | ASaturation => id = FUNC_SATURATION | ASigmoidHip => id = FUNC_SIGMOID_HIP
          | ASigmoid => id = FUNC_SIGMOID | AFuzzy => id = FUNC_FUZZY
          | AGceq => id = FUNC_GCEQ | ALceq => id = FUNC_LCEQ | ARelm => id = FUNC_RELM end).
  { unfold get_function_by_name, get_const_by_name in *.
    repeat match type of Hf with
      | (if String.eqb name ?s then _ else _) = _ =>
          let E := fresh in destruct (String.eqb_spec name s) as [E|E];
            [subst name; injection Hf as <-; simpl in Hc; injection Hc as <-; reflexivity|]
      end. discriminate. }
  destruct fn; subst id; cbn [call_actv] in H; apply rbind_ok in H as (u & Hu & H); apply kw_only_ok in Hu.
  - apply forallb_keys_nil in Hu. subst a. exact H.
  - apply forallb_keys_nil in Hu. subst a. exact H.
  - apply forallb_keys_nil in Hu. subst a. exact H.
  - apply rbind_ok in H as (x & Hx & H).
    destruct (scal_dispatch _ _ _ _ HN Hu Hx) as [(-> & -> & ->)|E]; [exact H|rewrite E; exact H].
  - apply rbind_ok in H as (x & Hx & H).
    destruct (scal_dispatch _ _ _ _ HN Hu Hx) as [(-> & -> & ->)|E]; [exact H|rewrite E; exact H].
  - apply rbind_ok in H as (m & Hm & H). apply rbind_ok in H as (v & Hv & H).
    unfold kw_vec in Hm, Hv.
    destruct (dget a "membership") as [[|m'|]|] eqn:Em; try discriminate. injection Hm as ->.
    destruct (dget a "val_list") as [[|v'|]|] eqn:Ev; try discriminate. injection Hv as ->.
    specialize (HL _ _ eq_refl eq_refl).
    assert (Hp : process_function_args a = m ++ v).
    { destruct (forallb_keys_fuzzy a HN Hu _ _ Em Ev) as [-> | ->];
        unfold process_function_args; simpl; now rewrite app_nil_r. }
    rewrite Hp. unfold exec_actv_function. cbn [Z.eqb FUNC_FUZZY FUNC_SATURATION FUNC_BISTATE
      FUNC_THREESTATE FUNC_GCEQ FUNC_LCEQ FUNC_SIGMOID FUNC_SIGMOID_HIP FUNC_RELM Pos.eqb].
    assert (Hh : Nat.div (length (m ++ v)) 2 = length m).
    { rewrite app_length, HL. replace (length v + length v) with (length v * 2) by lia.
      apply Nat.div_mul. lia. }
    rewrite Hh. rewrite firstn_app, firstn_all, Nat.sub_diag, firstn_O, app_nil_r.
    rewrite skipn_app, skipn_all, Nat.sub_diag. exact H.
  - apply rbind_ok in H as (x & Hx & H).
    destruct (scal_dispatch _ _ _ _ HN Hu Hx) as [(-> & -> & ->)|E]; [exact H|rewrite E; exact H].
  - apply rbind_ok in H as (x & Hx & H).
    destruct (scal_dispatch _ _ _ _ HN Hu Hx) as [(-> & -> & ->)|E]; [exact H|rewrite E; exact H].
  - apply rbind_ok in H as (x & Hx & H).
    destruct (scal_dispatch _ _ _ _ HN Hu Hx) as [(-> & -> & ->)|E]; [exact H|rewrite E; exact H].
Qed.
Lemma names_agree name : (exists fn, get_function_by_name name = Some fn) <-> (exists id, get_const_by_name name = Some id).
Proof.
  unfold get_function_by_name, get_const_by_name.
  split; intros [x Hx];
  repeat match type of Hx with
    | (if String.eqb name ?s then _ else _) = _ =>
        let E := fresh in destruct (String.eqb_spec name s) as [E|E];
          [subst name; simpl; eexists; reflexivity|]
    end; discriminate.
Qed.
End Dispatch.

(** ** Activation dictionaries *)
From Coq Require Import Reals Lra.
From Verif Require Import RealFacts.

Lemma R_preorder : total_preorder (nleb : R -> R -> bool) (fun _ => True).
Proof.
  split; cbn [nleb RNum].
  - intros x y _ _. destruct (Rle_or_lt x y); [left|right]; apply Rleb_true; lra.
  - intros x y z _ _ _ H1 H2. apply Rleb_true in H1, H2. apply Rleb_true. lra.
Qed.

Lemma nondecreasing_first l m : nondecreasing l -> nth_error l 0 = Some m -> is_min l m.
Proof.
  intros H Hm. split; [eapply nth_error_In; eauto|].
  intros x Hx. apply In_nth_error in Hx as [i Hi]. destruct i as [|i].
  - rewrite Hm in Hi. injection Hi as <-. lra.
  - apply (H 0 (S i)); auto. lia.
Qed.
Lemma nondecreasing_last l m : nondecreasing l -> nth_error l (length l - 1) = Some m -> is_max l m.
Proof.
  intros H Hm. split; [eapply nth_error_In; eauto|].
  intros x Hx. apply In_nth_error in Hx as [i Hi].
  assert (i < length l) by (apply nth_error_Some; congruence).
  destruct (Nat.eq_dec i (length l - 1)) as [->|].
  - rewrite Hm in Hi. injection Hi as <-. lra.
  - apply (H i (length l - 1)); auto. lia.
Qed.

Lemma combine_fst {A B} (l : list A) (m : list B) : length l = length m -> map fst (combine l m) = l.
Proof. revert m; induction l; intros [|b m]; simpl; try discriminate; auto. intros [= H]. f_equal; auto. Qed.
Lemma combine_snd {A B} (l : list A) (m : list B) : length l = length m -> map snd (combine l m) = m.
Proof. revert m; induction l; intros [|b m]; simpl; try discriminate; auto. intros [= H]. f_equal; auto. Qed.

Lemma process_activation_dict_spec (d : adict R) :
  length (ad_memb d) = length (ad_vals d) -> ad_vals d <> [] ->
  exists vals memb mn mx,
    process_activation_dict d =
      Ok (vals, memb, map (fun v => ((v + Rabs mn) / (Rabs mn + mx))%R) vals) /\
    Permutation (combine vals memb) (combine (ad_vals d) (ad_memb d)) /\
    length vals = length (ad_vals d) /\ length memb = length vals /\
    nondecreasing vals /\ is_min (ad_vals d) mn /\ is_max (ad_vals d) mx /\
    nth_error vals 0 = Some mn /\ nth_error vals (length vals - 1) = Some mx.
Proof.
  intros HL Hne. set (a := ad_vals d) in *. set (m := ad_memb d) in *.
  assert (Hlen : 0 < length a) by (destruct a; [congruence|simpl; lia]).
  destruct (dual_quick_sort_spec (nleb : R -> R -> bool) (fun _ => True) R_preorder a m 0 (Z.of_nat (length a) - 1))
    as (a' & m' & E & HR & HS); try lia.
  { apply Forall_forall. auto. }
  assert (Hla := proj1 HR). assert (Hlm := proj1 (proj2 HR)).
  apply rearr_Permutation in HR; [|lia].
  assert (ND : nondecreasing a').
  { intros i j x y Hij Hx Hy. apply Rleb_true.
    apply (HS i j x y); auto; try lia.
    assert (j < length a') by (apply nth_error_Some; congruence). lia. }
  destruct (nth_error a' 0) as [mn|] eqn:E0; [|apply nth_error_None in E0; lia].
  destruct (nth_error a' (length a' - 1)) as [mx|] eqn:E1; [|apply nth_error_None in E1; lia].
  assert (PV : Permutation a' a).
  { rewrite <- (combine_fst a' m') by lia. rewrite <- (combine_fst a m) by lia. now apply Permutation_map. }
  exists a', m', mn, mx. unfold process_activation_dict. fold a m. rewrite E. cbn [rbind].
  unfold lget. rewrite E0. cbn [rbind]. rewrite E1. cbn [rbind nadd nabs ndiv RNum].
  repeat (split; auto; try lia).
  - apply Permutation_in with a'; auto. eapply nth_error_In; eauto.
  - intros x Hx. apply (nondecreasing_first a' mn ND E0). apply Permutation_in with a; auto. now symmetry.
  - apply Permutation_in with a'; auto. eapply nth_error_In; eauto.
  - intros x Hx. apply (nondecreasing_last a' mx ND E1). apply Permutation_in with a; auto. now symmetry.
Qed.

Lemma scaled_spec vals mn mx : nondecreasing vals -> (0 < Rabs mn + mx)%R ->
  nth_error vals 0 = Some mn -> nth_error vals (length vals - 1) = Some mx ->
  let scaled := map (fun v => ((v + Rabs mn) / (Rabs mn + mx))%R) vals in
  nondecreasing scaled /\ in01 scaled /\ nth_error scaled (length scaled - 1) = Some 1%R.
Proof.
  intros ND H0 E0 E1 scaled. pose proof (Rinv_0_lt_compat _ H0) as Hi.
  assert (Hmono : forall x y, (x <= y)%R -> ((x + Rabs mn) / (Rabs mn + mx) <= (y + Rabs mn) / (Rabs mn + mx))%R).
  { intros x y Hxy. unfold Rdiv. apply Rmult_le_compat_r; lra. }
  split; [|split].
  - intros i j x y Hij Hx Hy. unfold scaled in *. rewrite nth_error_map in Hx, Hy.
    destruct (nth_error vals i) eqn:Ei; [|discriminate]. destruct (nth_error vals j) eqn:Ej; [|discriminate].
    simpl in *. injection Hx as <-. injection Hy as <-. apply Hmono. eapply ND; eauto.
  - unfold in01, scaled. rewrite Forall_map. apply Forall_forall. intros x Hx.
    pose proof (proj2 (nondecreasing_first _ _ ND E0) x Hx).
    pose proof (proj2 (nondecreasing_last _ _ ND E1) x Hx).
    assert (- Rabs mn <= mn)%R by (unfold Rabs; destruct (Rcase_abs mn); lra).
    split.
    + unfold Rdiv. apply Rmult_le_pos; lra.
    + replace 1%R with ((mx + Rabs mn) / (Rabs mn + mx))%R by (field; lra). apply Hmono. lra.
  - unfold scaled. rewrite map_length, nth_error_map, E1. simpl. f_equal. field. lra.
Qed.
(** when the scale factor vanishes: all values equal and not positive *)
Lemma scale_zero_iff vals mn mx : is_min vals mn -> is_max vals mx ->
  ((Rabs mn + mx = 0)%R <-> mx = mn /\ (mn <= 0)%R) /\ (0 <= Rabs mn + mx)%R.
Proof.
  intros [Hm1 Hm2] [Hx1 Hx2]. pose proof (Hm2 _ Hx1).
  unfold Rabs. destruct (Rcase_abs mn); split; try split; intros; lra.
Qed.

Lemma add_fuzzy_concept (s : fcm R) name ty ia um ex (d : adict R) fn kw :
  ty = TYPE_FUZZY \/ ty = TYPE_REGRESOR ->
  (ex = None \/ exists e x, ex = Some e /\ get_excitation_by_name e = Some x) ->
  length (ad_memb d) = length (ad_vals d) -> ad_vals d <> [] ->
  exists n vals memb mn mx,
    let scaled := map (fun v => ((v + Rabs mn) / (Rabs mn + mx))%R) vals in
    snd (add_concept name (Some ty) ia um ex (Some d) fn kw s) = Ok tt /\
    dget (m_topo (fst (add_concept name (Some ty) ia um ex (Some d) fn kw s))) name = Some n /\
    nd_fuzzy n = Some (memb, vals) /\ nd_func n = Some "fuzzy" /\
    nd_args n = Some [("val_list", AVec scaled); ("membership", AVec memb)] /\
    nd_vect n = Some (memb ++ scaled) /\
    Permutation (combine vals memb) (combine (ad_vals d) (ad_memb d)) /\ length memb = length vals /\
    nondecreasing vals /\ is_min (ad_vals d) mn /\ is_max (ad_vals d) mx /\
    ((0 < Rabs mn + mx)%R ->
      nondecreasing scaled /\ in01 scaled /\ nth_error scaled (length scaled - 1) = Some 1%R).
Proof.
  intros Hty Hex HL Hne.
  destruct (process_activation_dict_spec d HL Hne) as (vals & memb & mn & mx & E & HP & L1 & L2 & ND & Hmn & Hmx & E0 & E1).
  assert (Hv : is_valid_type ty = true) by (destruct Hty; subst; reflexivity).
  assert (Hz : is_fuzzy_type ty = true) by (destruct Hty; subst; reflexivity).
  assert (Hexc : forall m : string, exists e, (match ex with
         | Some e => match get_excitation_by_name e with Some _ => Ok e | None => Err (EExc (append m e)) end
         | None => Ok (dc_exec (m_default (set_prepared false s)))
         end) = Ok e).
  { intros m. destruct Hex as [->|(e & x & -> & Hx)]; [eauto|]. rewrite Hx. eauto. }
  unfold add_concept, build_node.
  destruct (Hexc "Unknown excitation function: ") as [e He]. rewrite He. rewrite Hv, Hz, E.
  cbn [rbind define_func is_ok].
  eexists _, vals, memb, mn, mx. cbv zeta.
  split; [reflexivity|]. split; [cbn [fst m_topo put_exec put_node set_exec set_topo]; apply dget_dset_same|].
  cbn [nd_fuzzy nd_set_value nd_set_vect nd_set_func nd_set_usemap nd_set_mem nd_set_fuzzy nd_func nd_args nd_vect].
  split; [reflexivity|]. split; [reflexivity|]. split; [reflexivity|]. split.
  { unfold process_function_args, scaled_args. simpl. now rewrite app_nil_r. }
  split; [exact HP|]. split; [exact L2|]. split; [exact ND|]. split; [exact Hmn|]. split; [exact Hmx|].
  intros H. now apply scaled_spec.
Qed.
