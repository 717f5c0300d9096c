(** FcmIter.v — the iterative engine: one step, the loop, histories. *)
From Verif Require Import Base BaseFacts Num Functions Fcm FcmSpec FcmInv FcmInv2 FcmInv3.

Section Iter.
Context {F : Type} {N : Num F}.
Implicit Types s : fcm F.

Definition quiet s : Prop := forall c n, dget (m_topo s) c = Some n -> nd_aux n = [].
(** current values as a function *)
Definition vals (t : dict (node F)) (c : string) : F :=
  match dget t c with Some n => nd_value n | None => n0 end.
Definition arcs_in (t : dict (node F)) (arcs : list (string * F * string)) : Prop :=
  forall d w o, In (d, w, o) arcs -> In d (dkeys t) /\ In o (dkeys t).
Lemma rel_ok_arcs s : rel_ok (concepts s) (relations s) -> arcs_in (m_topo s) (m_arcs s).
Proof.
  intros H d w o Hin. destruct (H o d w); [|split; assumption].
  unfold relations. apply in_map_iff. exists (d, w, o). split; auto.
Qed.

Lemma signal_exec (n : node F) e v : nd_exec n = Some e ->
  signal n v = if String.eqb e "PAPAGEORGIUS" then nsub (nmul n2 v) n1 else v.
Proof.
  intros H. unfold signal. rewrite H. destruct (String.eqb_spec e "PAPAGEORGIUS") as [->|Hne]; [reflexivity|].
  repeat match goal with
  | |- context [match ?e with EmptyString => _ | String _ _ => _ end] => destruct e as [|[[] [] [] [] [] [] [] []] ?]; try reflexivity
  end.
  exfalso. apply Hne. reflexivity.
Qed.

Lemma incoming_ext t t' arcs x x' c :
  (forall o, In o (map snd arcs) -> match dget t o, dget t' o with
     | Some n, Some n' => nd_active n = nd_active n' /\ nd_exec n = nd_exec n'
     | None, None => True | _, _ => False end) ->
  (forall o, In o (map snd arcs) -> x o = x' o) ->
  @incoming F N t arcs x c = incoming t' arcs x' c.
Proof.
  intros Ht Hx. induction arcs as [|[[d w] o] arcs IH]; auto. cbn [incoming].
  rewrite IH; [|intros; apply Ht; now right|intros; apply Hx; now right].
  specialize (Ht o (or_introl eq_refl)). specialize (Hx o (or_introl eq_refl)).
  destruct (dget t o) as [n|], (dget t' o) as [n'|]; try contradiction; auto.
  destruct Ht as [-> E]. unfold signal. rewrite E, Hx. reflexivity.
Qed.

(** ** Phase 1 *)
Definition add_aux (t : dict (node F)) arcs (c : string) (n : node F) : node F :=
  nd_set_aux (nd_aux n ++ incoming t arcs (vals t) c) n.
Lemma nd_set_aux_id (n : node F) : nd_set_aux (nd_aux n) n = n.
Proof. destruct n; reflexivity. Qed.
Lemma dmap_ext_in {A B} (f g : string -> A -> B) (d : dict A) :
  (forall c n, In (c, n) d -> f c n = g c n) -> dmap f d = dmap g d.
Proof. intros H. unfold dmap. apply map_ext_in. intros [c n] Hin. cbn. now rewrite (H c n). Qed.
Lemma dmap_id {A} (f : string -> A -> A) (d : dict A) : (forall c n, In (c, n) d -> f c n = n) -> dmap f d = d.
Proof.
  intros H. unfold dmap. rewrite <- (map_id d) at 2. apply map_ext_in. intros [c n] Hin. cbn. now rewrite (H c n).
Qed.
Lemma dset_dmap {A} (d : dict A) k v : NoDup (dkeys d) -> In k (dkeys d) ->
  dset d k v = dmap (fun c n => if String.eqb c k then v else n) d.
Proof.
  induction d as [|[k0 v0] d IH]; [intros _ []|]. intros ND Hin. inversion ND as [|? ? Hni ND']; subst. simpl.
  rewrite String.eqb_sym. destruct (String.eqb_spec k0 k) as [->|Hne].
  - f_equal. symmetry. apply dmap_id. intros c n Hc. destruct (String.eqb_spec c k) as [->|]; auto.
    exfalso. apply Hni. apply (in_map fst) in Hc. exact Hc.
  - f_equal. apply IH; auto. destruct Hin as [E|Hk]; [cbn in E; congruence|exact Hk].
Qed.
Lemma dmap_dmap {A B C} (f : string -> A -> B) (g : string -> B -> C) (d : dict A) :
  dmap g (dmap f d) = dmap (fun c n => g c (f c n)) d.
Proof. unfold dmap. rewrite map_map. reflexivity. Qed.

Lemma spread_one d w o s no nd : dget (m_topo s) o = Some no -> complete_node no -> dget (m_topo s) d = Some nd ->
  spread_arc (d, w, o) s =
  ((if match nd_active no with Some b => b | None => false end
    then put_node d (nd_set_aux (nd_aux nd ++ [nmul (signal no (nd_value no)) w]) nd) s else s), Ok tt).
Proof.
  intros Ho C Hd. unfold spread_arc, dget_exn. rewrite Ho, Hd. cbn [rbind].
  destruct C as (C1 & _ & _ & _ & _ & _ & (e & x & C7 & _) & _).
  destruct (nd_active no) as [[|]|]; cbn [oget rbind]; [|reflexivity|congruence].
  rewrite C7. cbn [oget rbind]. rewrite (signal_exec no e) by auto.
  destruct (String.eqb e "PAPAGEORGIUS"); reflexivity.
Qed.
Lemma spread_all arcs s : NoDup (dkeys (m_topo s)) -> full s -> arcs_in (m_topo s) arcs ->
  mfold spread_arc arcs s = (set_topo (dmap (add_aux (m_topo s) arcs) (m_topo s)) s, Ok tt).
Proof.
  revert s. induction arcs as [|[[d w] o] arcs IH]; intros s ND Hf Hin.
  - simpl. f_equal. rewrite dmap_id; [destruct s; reflexivity|].
    intros c n _. unfold add_aux. cbn. rewrite app_nil_r. apply nd_set_aux_id.
  - cbn [mfold]. destruct (Hin d w o (or_introl eq_refl)) as [Hd Ho].
    pose proof Hd as Hd0. apply dget_Some_In in Hd as [nd Hd]. apply dget_Some_In in Ho as [no Ho].
    rewrite (spread_one d w o s no nd Ho (Hf _ _ Ho) Hd).
    destruct (match nd_active no with Some b => b | None => false end) eqn:Act.
    + set (nd' := nd_set_aux (nd_aux nd ++ [nmul (signal no (nd_value no)) w]) nd).
      assert (Kd : dkeys (dset (m_topo s) d nd') = dkeys (m_topo s)).
      { rewrite dkeys_dset. unfold dmem. now rewrite Hd. }
      rewrite IH.
      * f_equal. unfold put_node, set_topo. cbn [m_topo m_arcs m_exec m_stab m_maxit m_extra m_sdiff m_decision m_mem m_func m_gargs m_iters m_weight m_default m_debug m_fit m_prepared m_cache m_oob].
        f_equal. apply dict_ext.
        -- rewrite dkeys_dmap, Kd. exact ND.
        -- now rewrite !dkeys_dmap, Kd.
        -- intros k. rewrite !dget_dmap, dget_dset.
           assert (IE : incoming (dset (m_topo s) d nd') arcs (vals (dset (m_topo s) d nd')) k = incoming (m_topo s) arcs (vals (m_topo s)) k).
           { apply incoming_ext.
             - intros o' _. rewrite dget_dset. destruct (String.eqb_spec o' d) as [->|].
               + rewrite Hd. split; reflexivity.
               + destruct (dget (m_topo s) o'); auto.
             - intros o' _. unfold vals. rewrite dget_dset. destruct (String.eqb_spec o' d) as [->|]; auto.
               rewrite Hd. reflexivity. }
           destruct (String.eqb_spec k d) as [->|Hne].
           ++ rewrite Hd. f_equal. unfold add_aux. rewrite IE. cbn [incoming]. rewrite Ho, Act, String.eqb_refl.
              cbn [andb]. unfold nd'. cbn. replace (vals (m_topo s) o) with (nd_value no) by (unfold vals; now rewrite Ho). rewrite <- app_assoc. reflexivity.
           ++ destruct (dget (m_topo s) k) as [n|]; auto. f_equal. unfold add_aux. rewrite IE. cbn [incoming]. rewrite Ho.
              assert (String.eqb d k = false) as -> by (apply String.eqb_neq; congruence). reflexivity.
      * unfold put_node. cbn [m_topo set_topo]. now rewrite Kd.
      * apply full_put; auto. exact (Hf _ _ Hd).
      * unfold put_node. cbn [m_topo set_topo]. unfold arcs_in. rewrite Kd. intros; apply (Hin d0 w0 o0). now right.
    + rewrite IH; auto; [|intros ? ? ? Hx; apply (Hin d0 w0 o0); now right].
      f_equal. f_equal. apply dmap_ext_in. intros c n _. unfold add_aux. cbn [incoming]. rewrite Ho, Act.
      rewrite andb_false_r. reflexivity.
Qed.

(** ** Phase 2 *)
(** the value update_value stores for a node whose received contributions are [l] *)
Definition upd_fn (n : node F) (l : list F) : res F :=
  (e <- oget (nd_exec n) "custom execution function" ;;
   mem <- oget (nd_mem n) "use memory in current node execution" ;;
   ex <- (match get_excitation_by_name e with Some x => Ok x | None => Err EType end) ;;
   f <- oget (nd_func n) "custom activation function name" ;;
   v <- (if String.eqb f "fuzzy" then pdiv (exec_excit ex l (nd_value n) mem) (nd_sum n)
         else Ok (exec_excit ex l (nd_value n) mem)) ;;
   fn <- (match get_function_by_name f with Some x => Ok x | None => Err EType end) ;;
   a <- oget (nd_args n) "custom activation function arguments" ;;
   call_actv fn v a)%res.
Lemma update_one c s n h : dget (m_topo s) c = Some n -> dget (m_exec s) c = Some h ->
  match upd_fn n (nd_aux n) with
  | Ok y => update_value c s = (put_exec c (h ++ [y]) (put_node c (nd_set_value y (nd_set_aux [] n)) s), Ok tt)
  | Err e => exists s', update_value c s = (s', Err e)
  end.
Proof.
  intros Hn Hh. unfold update_value, upd_fn, dget_exn. rewrite Hn. cbn [rbind].
  destruct (oget (nd_exec n) "custom execution function") as [e|x]; cbn [rbind]; [|eauto].
  destruct (oget (nd_mem n) "use memory in current node execution") as [mem|x]; cbn [rbind]; [|eauto].
  destruct (get_excitation_by_name e) as [ex|]; cbn [rbind]; [|eauto].
  change (nd_func (nd_set_aux [] n)) with (nd_func n). change (nd_sum (nd_set_aux [] n)) with (nd_sum n).
  change (nd_args (nd_set_aux [] n)) with (nd_args n).
  match goal with |- match ?m with _ => _ end =>
    destruct m as [y|x] end; [|eauto].
  cbn [m_exec put_node set_topo]. rewrite Hh. unfold put_exec, put_node, set_exec, set_topo. cbn. rewrite dset_dset. reflexivity.
Qed.
Definition upd_topo (y : string -> F) (t : dict (node F)) : dict (node F) :=
  dmap (fun c n => nd_set_value (y c) (nd_set_aux [] n)) t.
Definition upd_exec (y : string -> F) (e : dict (list F)) : dict (list F) :=
  dmap (fun c h => h ++ [y c]) e.
Lemma update_all s (yf : string -> res F) : NoDup (dkeys (m_topo s)) -> keys_eq s ->
  (forall c n, dget (m_topo s) c = Some n -> yf c = upd_fn n (nd_aux n)) ->
  match rmap yf (dkeys (m_topo s)) with
  | Ok _ => exists y, (forall c, In c (dkeys (m_topo s)) -> yf c = Ok (y c)) /\
      mfold update_value (dkeys (m_exec s)) s = (set_exec (upd_exec y (m_exec s)) (set_topo (upd_topo y (m_topo s)) s), Ok tt)
  | Err e => exists s', mfold update_value (dkeys (m_exec s)) s = (s', Err e)
  end.
Proof.
  intros ND K Hy. rewrite K.
  assert (G : forall l s', NoDup l -> (forall c, In c l -> In c (dkeys (m_topo s))) ->
    (forall c, In c l -> dget (m_topo s') c = dget (m_topo s) c /\ dget (m_exec s') c = dget (m_exec s) c) ->
    match rmap yf l with
    | Ok _ => exists y t e, (forall c, In c l -> yf c = Ok (y c)) /\
        mfold update_value l s' = (set_exec e (set_topo t s'), Ok tt) /\
        dkeys t = dkeys (m_topo s') /\ dkeys e = dkeys (m_exec s') /\
        (forall c, In c l -> dget t c = dget (upd_topo y (m_topo s)) c /\ dget e c = dget (upd_exec y (m_exec s)) c) /\
        (forall c, ~ In c l -> dget t c = dget (m_topo s') c /\ dget e c = dget (m_exec s') c)
    | Err e => exists s'', mfold update_value l s' = (s'', Err e)
    end).
  { induction l as [|c l IH]; intros s' NDl Hl Hsame.
    - simpl. exists (fun _ => n0), (m_topo s'), (m_exec s'). split; [intros c []|]. split; [destruct s'; reflexivity|].
      repeat split; intuition.
    - destruct (Hsame c (or_introl eq_refl)) as [T E].
      destruct (proj2 (dget_Some_In (m_topo s) c) (Hl c (or_introl eq_refl))) as [n Hn].
      assert (Hc : In c (dkeys (m_exec s))) by (rewrite K; apply Hl; now left).
      apply dget_Some_In in Hc as [h Hh]. rewrite Hn in T. rewrite Hh in E.
      pose proof (update_one c s' n h T E) as U. cbn [rmap mfold]. rewrite (Hy c n Hn).
      destruct (upd_fn n (nd_aux n)) as [yc|e] eqn:Eu; cbn [rbind].
      2: { destruct U as [s'' ->]. eauto. }
      rewrite U. inversion NDl as [|? ? Hni NDl']; subst.
      set (s2 := put_exec c (h ++ [yc]) (put_node c (nd_set_value yc (nd_set_aux [] n)) s')) in *.
      specialize (IH s2 NDl' (fun c' H => Hl c' (or_intror H))).
      assert (Hs2 : forall c', In c' l -> dget (m_topo s2) c' = dget (m_topo s) c' /\ dget (m_exec s2) c' = dget (m_exec s) c').
      { intros c' Hc'. assert (c' <> c) by congruence. unfold s2, put_exec, put_node. cbn [m_topo m_exec set_exec set_topo].
        rewrite !dget_dset_other by auto. apply Hsame. now right. }
      specialize (IH Hs2). destruct (rmap yf l) as [ys|e]; cbn [rbind]; [|exact IH].
      destruct IH as (y & t & e & Hyl & M & Kt & Ke & Hin & Hout).
      exists (fun c' => if String.eqb c' c then yc else y c'), t, e.
      split; [|split; [|split; [|split; [|split]]]].
      + intros c' [<-|Hc']; [rewrite String.eqb_refl, (Hy c n Hn); exact Eu|].
        assert (String.eqb c' c = false) as -> by (apply String.eqb_neq; congruence). auto.
      + rewrite M. reflexivity.
      + rewrite Kt. unfold s2, put_exec, put_node. cbn [m_topo m_exec set_exec set_topo]. rewrite dkeys_dset. unfold dmem. now rewrite T.
      + rewrite Ke. unfold s2, put_exec, put_node. cbn [m_topo m_exec set_exec set_topo]. rewrite dkeys_dset. unfold dmem. now rewrite E.
      + intros c' [<-|Hc'].
        * destruct (Hout c Hni) as [O1 O2]. rewrite O1, O2. unfold s2, put_exec, put_node. cbn [m_topo m_exec set_exec set_topo].
          rewrite !dget_dset_same. unfold upd_topo, upd_exec. rewrite !dget_dmap, Hn, Hh, String.eqb_refl. split; reflexivity.
        * destruct (Hin c' Hc') as [-> ->]. unfold upd_topo, upd_exec. rewrite !dget_dmap.
          assert (String.eqb c' c = false) as -> by (apply String.eqb_neq; congruence). split; reflexivity.
      + intros c' Hc'. simpl in Hc'. destruct (Hout c') as [O1 O2]; [tauto|]. rewrite O1, O2.
        unfold s2, put_exec, put_node. cbn [m_topo m_exec set_exec set_topo].
        rewrite !dget_dset_other by (intros ->; apply Hc'; now left). split; reflexivity. }
  specialize (G (dkeys (m_topo s)) s ND (fun c H => H) (fun c _ => conj eq_refl eq_refl)).
  destruct (rmap yf (dkeys (m_topo s))) as [ys|e]; [|exact G].
  destruct G as (y & t & e & Hyl & M & Kt & Ke & Hin & Hout). exists y. split; auto. rewrite M. f_equal.
  assert (t = upd_topo y (m_topo s)) as ->.
  { apply dict_ext; [now rewrite Kt|unfold upd_topo; now rewrite dkeys_dmap|].
    intros k. destruct (in_dec string_dec k (dkeys (m_topo s))) as [i|i]; [apply Hin; exact i|].
    rewrite (proj1 (Hout k i)). unfold upd_topo. rewrite dget_dmap. apply dget_None in i. now rewrite i. }
  assert (e = upd_exec y (m_exec s)) as ->.
  { apply dict_ext; [rewrite Ke; now rewrite K|unfold upd_exec; now rewrite dkeys_dmap|].
    intros k. destruct (in_dec string_dec k (dkeys (m_topo s))) as [i|i]; [apply Hin; exact i|].
    rewrite (proj2 (Hout k i)). unfold upd_exec. rewrite dget_dmap. rewrite <- K in i. apply dget_None in i. now rewrite i. }
  reflexivity.
Qed.

(** ** One step *)
Definition next_fn (t : dict (node F)) arcs (x : string -> F) (c : string) : res F :=
  match dget t c with
  | Some n => upd_fn (nd_set_value (x c) n) (incoming t arcs x c)
  | None => Err (EKey c)
  end.
Lemma next_fn_value t arcs x c n y : dget t c = Some n -> complete_node n ->
  (next_fn t arcs x c = Ok y <-> next_value t arcs x c n y).
Proof.
  intros Hn C. unfold next_fn, next_value. rewrite Hn. unfold upd_fn.
  destruct C as (_ & _ & C3 & _ & C5 & _ & (e & ex & E1 & E2) & (f & fn & F1 & F2)).
  cbn [nd_exec nd_set_value nd_mem nd_func nd_value nd_sum nd_args].
  destruct (nd_mem n) as [mem|] eqn:Em; [|congruence]. destruct (nd_args n) as [a|] eqn:Ea; [|congruence].
  rewrite E1, F1. cbn [oget rbind]. rewrite E2. cbn [rbind]. rewrite F2.
  assert (T : exec_excit ex (incoming t arcs x c) (x c) mem = total_input t arcs x c n).
  { unfold total_input. rewrite Em, (signal_exec n e) by auto. unfold get_excitation_by_name in E2.
    destruct (String.eqb_spec e "KOSKO") as [->|]; [injection E2 as <-; reflexivity|].
    destruct (String.eqb_spec e "PAPAGEORGIUS"); [injection E2 as <-; reflexivity|discriminate]. }
  rewrite T. clear T. unfold pdiv. destruct (String.eqb f "fuzzy") eqn:Ef.
  - destruct (neqb (nd_sum n) n0) eqn:Ez; cbn [rbind oget].
    + split; [discriminate|]. intros (f' & fn' & a' & z & H1 & H2 & H3 & H4 & H5).
      injection H1 as <-. rewrite Ef in H4. destruct H4 as [H4 _]. congruence.
    + split.
      * intros H. exists f, fn, a. eexists. repeat split; eauto. rewrite Ef. split; eauto.
      * intros (f' & fn' & a' & z & H1 & H2 & H3 & H4 & H5).
        injection H1 as <-. rewrite Ef in H4. destruct H4 as [_ ->]. congruence.
  - cbn [rbind oget]. split.
    + intros H. exists f, fn, a. eexists. repeat split; eauto. now rewrite Ef.
    + intros (f' & fn' & a' & z & H1 & H2 & H3 & H4 & H5).
      injection H1 as <-. rewrite Ef in H4. subst z. congruence.
Qed.
Definition stepped (y : string -> F) s : fcm F :=
  set_iters (m_iters s + 1)%Z (set_exec (upd_exec y (m_exec s)) (set_topo (upd_topo y (m_topo s)) s)).
(** the conditions under which a map can be run *)
Record runnable s : Prop := {
  rn_nodup : NoDup (dkeys (m_topo s));
  rn_full : full s;
  rn_keys : keys_eq s;
  rn_arcs : arcs_in (m_topo s) (m_arcs s);
  rn_quiet : quiet s
}.
Lemma inf_step_spec s : runnable s ->
  match rmap (next_fn (m_topo s) (m_arcs s) (vals (m_topo s))) (dkeys (m_topo s)) with
  | Ok _ => exists y, (forall c, In c (dkeys (m_topo s)) -> next_fn (m_topo s) (m_arcs s) (vals (m_topo s)) c = Ok (y c)) /\
      inf_step s = (stepped y s, Ok tt)
  | Err e => exists s', inf_step s = (s', Err e)
  end.
Proof.
  intros [ND Hf K A Q]. unfold inf_step. rewrite (spread_all (m_arcs s) s ND Hf A).
  set (s1 := set_topo (dmap (add_aux (m_topo s) (m_arcs s)) (m_topo s)) s).
  assert (K1 : keys_eq s1) by (unfold keys_eq, s1; cbn [m_exec m_topo set_topo]; now rewrite dkeys_dmap).
  assert (ND1 : NoDup (dkeys (m_topo s1))) by (unfold s1; cbn [m_topo set_topo]; now rewrite dkeys_dmap).
  assert (KK : dkeys (m_topo s1) = dkeys (m_topo s)) by (unfold s1; cbn [m_topo set_topo]; now rewrite dkeys_dmap).
  assert (H : forall c n, dget (m_topo s1) c = Some n ->
     next_fn (m_topo s) (m_arcs s) (vals (m_topo s)) c = upd_fn n (nd_aux n)).
  { intros c n Hn. unfold s1 in Hn. cbn [m_topo set_topo] in Hn. rewrite dget_dmap in Hn.
    unfold next_fn. destruct (dget (m_topo s) c) as [n'|] eqn:E; [|discriminate]. injection Hn as <-.
    unfold add_aux. rewrite (Q _ _ E). cbn [app]. unfold vals. rewrite E. destruct n'; reflexivity. }
  pose proof (update_all s1 _ ND1 K1 H) as U. rewrite KK in U.
  destruct (rmap _ (dkeys (m_topo s))) as [ys|e].
  - destruct U as (y & Hy & M). exists y. split; auto. rewrite M. f_equal. unfold stepped, s1.
    unfold set_iters, set_exec, set_topo. cbn. f_equal.
    change (upd_topo y (dmap (add_aux (m_topo s) (m_arcs s)) (m_topo s)) = upd_topo y (m_topo s)).
    unfold upd_topo. rewrite dmap_dmap. apply dmap_ext_in. intros c n _. reflexivity.
  - destruct U as [s' ->]. eauto.
Qed.

Lemma stepped_frame y s : wframe s (stepped y s) /\ frame s (stepped y s).
Proof.
  assert (E : statics (stepped y s) = statics s).
  { unfold statics, stepped, upd_topo. cbn [m_topo set_iters set_exec set_topo]. rewrite dmap_dmap.
    apply dmap_ext_in. intros c n _. reflexivity. }
  split; repeat split; exact E.
Qed.
Lemma stepped_runnable y s : runnable s -> runnable (stepped y s).
Proof.
  intros [ND Hf K A Q]. pose proof (stepped_frame y s) as [(S & _) _].
  assert (KK : dkeys (m_topo (stepped y s)) = dkeys (m_topo s)) by (now apply statics_keys).
  constructor.
  - now rewrite KK.
  - eapply full_ev; [exact S|exact Hf].
  - unfold keys_eq. rewrite KK. unfold stepped, upd_exec. cbn [m_exec set_iters set_exec]. now rewrite dkeys_dmap.
  - unfold arcs_in. rewrite KK. exact A.
  - intros c n Hn. unfold stepped, upd_topo in Hn. cbn [m_topo set_iters set_exec set_topo] in Hn.
    rewrite dget_dmap in Hn. destruct (dget (m_topo s) c); [|discriminate]. injection Hn as <-. reflexivity.
Qed.
Lemma vals_stepped y s c : In c (dkeys (m_topo s)) -> vals (m_topo (stepped y s)) c = y c.
Proof.
  intros H. apply dget_Some_In in H as [n Hn]. unfold vals, stepped, upd_topo. cbn [m_topo set_iters set_exec set_topo].
  rewrite dget_dmap, Hn. reflexivity.
Qed.

(** next_fn only depends on the static part of the map *)
Lemma next_fn_static t t' arcs x x' c : dmap (fun _ => nd_static) t' = dmap (fun _ => nd_static) t ->
  (forall d w o, In (d, w, o) arcs -> x' o = x o) -> x' c = x c ->
  @next_fn t' arcs x' c = next_fn t arcs x c.
Proof.
  intros S Hx Hc. unfold next_fn.
  assert (D : forall k, match dget t' k, dget t k with Some n', Some n => nd_static n' = nd_static n | None, None => True | _, _ => False end).
  { intros k. apply (f_equal (fun d => dget d k)) in S. rewrite !dget_dmap in S.
    destruct (dget t' k), (dget t k); try discriminate; auto. congruence. }
  assert (I : incoming t' arcs x' c = incoming t arcs x c).
  { apply incoming_ext.
    - intros o _. specialize (D o). destruct (dget t' o) as [n'|], (dget t o) as [n|]; auto.
      assert (A1 : nd_active (nd_static n') = nd_active (nd_static n)) by now rewrite D.
      assert (A2 : nd_exec (nd_static n') = nd_exec (nd_static n)) by now rewrite D. split; assumption.
    - intros o Ho. apply in_map_iff in Ho as ([[d w] o'] & E & Hin). cbn in E. subst o'. eapply Hx, Hin. }
  rewrite I, Hc. specialize (D c). destruct (dget t' c) as [n'|], (dget t c) as [n|]; try contradiction; auto.
  assert (B : nd_set_value (x c) (nd_set_aux [] n') = nd_set_value (x c) (nd_set_aux [] n)).
  { change (nd_set_value (x c) (nd_static n') = nd_set_value (x c) (nd_static n)). now rewrite D. }
  change (upd_fn (nd_set_value (x c) n') (incoming t arcs x c)) with (upd_fn (nd_set_value (x c) (nd_set_aux [] n')) (incoming t arcs x c)).
  rewrite B. reflexivity.
Qed.

(** ** Several steps: [steps s L s'] = [L] successful passes *)
Inductive steps s : nat -> fcm F -> Prop :=
| steps_0 : steps s 0 s
| steps_S L s1 s2 : steps s L s1 -> inf_step s1 = (s2, Ok tt) -> steps s (S L) s2.
Lemma steps_cons s s1 s2 L : inf_step s = (s1, Ok tt) -> steps s1 L s2 -> steps s (S L) s2.
Proof.
  intros H1 H2. induction H2 as [|L s3 s4 H2 IH H3].
  - econstructor; [constructor|exact H1].
  - econstructor; [exact IH|exact H3].
Qed.
Lemma steps_runnable s L s' : runnable s -> steps s L s' -> runnable s'.
Proof.
  intros R H. induction H as [|L s1 s2 H IH E]; auto.
  pose proof (inf_step_spec s1 IH) as I. rewrite E in I.
  destruct (rmap _ _) as [ys|e]; [|destruct I as [s'' I]; discriminate].
  destruct I as (y & _ & I). injection I as ->. now apply stepped_runnable.
Qed.
(** histories and orbits *)
Definition traj (x : nat -> string -> F) (L : nat) (c : string) : list F := map (fun t => x (S t) c) (seq 0 L).
Lemma steps_orbit s L s' : runnable s -> steps s L s' ->
  exists x, (forall c, x 0 c = vals (m_topo s) c) /\
    (forall t c, t < L -> In c (dkeys (m_topo s)) -> next_fn (m_topo s) (m_arcs s) (x t) c = Ok (x (S t) c)) /\
    m_exec s' = dmap (fun c h => h ++ traj x L c) (m_exec s) /\
    (forall c, In c (dkeys (m_topo s)) -> vals (m_topo s') c = x L c) /\
    frame s s' /\ m_iters s' = (m_iters s + Z.of_nat L)%Z.
Proof.
  intros R H. induction H as [|L s1 s2 H IH E].
  - exists (fun _ => vals (m_topo s)). split; [auto|]. split; [intros; lia|]. split.
    + symmetry. apply dmap_id. intros c h _. unfold traj. simpl. apply app_nil_r.
    + split; [auto|]. split; [apply frame_refl|lia].
  - destruct IH as (x & X0 & XS & XE & XV & XF & XI).
    pose proof (steps_runnable s L s1 R H) as R1.
    pose proof (inf_step_spec s1 R1) as I. rewrite E in I.
    destruct (rmap _ _) as [ys|e]; [|destruct I as [s'' I]; discriminate].
    destruct I as (y & Hy & I). injection I as ->.
    assert (KK : dkeys (m_topo s1) = dkeys (m_topo s)) by (apply statics_keys; apply XF).
    exists (fun t => if Nat.leb t L then x t else y).
    split; [intros c; cbn; apply X0|]. split; [|split; [|split; [|split]]].
    + intros t c Ht Hc. destruct (Nat.leb_spec t L); [|lia].
      destruct (Nat.leb_spec (S t) L) as [H1|H1]; [apply XS; auto|].
      assert (t = L) as -> by lia. rewrite <- (Hy c) by now rewrite KK.
      destruct XF as (S1 & A1 & _). rewrite A1.
      symmetry. apply next_fn_static; [exact S1| |apply XV; exact Hc].
      intros d w o Hin. apply XV. destruct R as [_ _ _ RA _]. now apply (RA d w o).
    + unfold stepped, upd_exec. cbn [m_exec set_iters set_exec]. rewrite XE, dmap_dmap.
      apply dmap_ext_in. intros c h _. rewrite <- app_assoc. f_equal. unfold traj.
      rewrite seq_S, map_app. cbn [map]. rewrite Nat.add_0_l.
      destruct (Nat.leb_spec (S L) L); [lia|]. f_equal. apply map_ext_in. intros t Ht. apply in_seq in Ht.
      destruct (Nat.leb_spec (S t) L); [reflexivity|lia].
    + intros c Hc. rewrite vals_stepped by now rewrite KK. destruct (Nat.leb_spec (S L) L); [lia|reflexivity].
    + eapply frame_trans; [exact XF|]. apply stepped_frame.
    + unfold stepped. cbn [m_iters set_iters]. rewrite XI. lia.
Qed.

(** ** The loop *)
(** state of the loop control: number of passes is bounded by [budget] *)
Definition budget (e it mx E : Z) : Z :=
  if (it <? mx)%Z then (if (0 <? e)%Z then mx - it + (E - 1) else 0) else Z.max e 0.
Lemma inf_step_iters s s' : inf_step s = (s', Ok tt) -> m_iters s' = (m_iters s + 1)%Z.
Proof.
  unfold inf_step.
  assert (M1 : m_iters (fst (mfold spread_arc (m_arcs s) s)) = m_iters s).
  { apply (mfold_ind (fun s' => m_iters s' = m_iters s)); auto. intros [[d w] o] s0 <-. unfold spread_arc.
    match goal with |- context [match ?m with _ => _ end] => destruct m as [[nd|]|e] end; reflexivity. }
  destruct (mfold spread_arc (m_arcs s) s) as [s1 [u|e]]; [|discriminate]. cbn [fst] in M1.
  assert (M2 : m_iters (fst (mfold update_value (dkeys (m_exec s1)) s1)) = m_iters s1).
  { apply (mfold_ind (fun s' => m_iters s' = m_iters s1)); auto. intros c s0 <-. unfold update_value.
    match goal with |- context [match ?m with _ => _ end] => destruct m as [[n x]|e] end; [|reflexivity].
    match goal with |- context [match ?m with Ok _ => _ | Err _ => _ end] => destruct m as [r|e] end; [|reflexivity].
    unfold put_node. cbn [m_exec set_topo]. destruct (dget (m_exec s0) c); reflexivity. }
  destruct (mfold update_value _ s1) as [s2 [u2|e2]]; [|discriminate]. cbn [fst] in M2.
  intros [= <-]. cbn. lia.
Qed.
Lemma inf_step_err_iters s s' e : inf_step s = (s', Err e) -> m_iters s' = m_iters s.
Proof.
  unfold inf_step.
  assert (M1 : m_iters (fst (mfold spread_arc (m_arcs s) s)) = m_iters s).
  { apply (mfold_ind (fun s' => m_iters s' = m_iters s)); auto. intros [[d w] o] s0 <-. unfold spread_arc.
    match goal with |- context [match ?m with _ => _ end] => destruct m as [[nd|]|?] end; reflexivity. }
  destruct (mfold spread_arc (m_arcs s) s) as [s1 [u|x]]; cbn [fst] in M1; [|intros [= <- _]; exact M1].
  assert (M2 : m_iters (fst (mfold update_value (dkeys (m_exec s1)) s1)) = m_iters s1).
  { apply (mfold_ind (fun s' => m_iters s' = m_iters s1)); auto. intros c s0 <-. unfold update_value.
    match goal with |- context [match ?m with _ => _ end] => destruct m as [[n x]|?] end; [|reflexivity].
    match goal with |- context [match ?m with Ok _ => _ | Err _ => _ end] => destruct m as [r|?] end; [|reflexivity].
    unfold put_node. cbn [m_exec set_topo]. destruct (dget (m_exec s0) c); reflexivity. }
  destruct (mfold update_value _ s1) as [s2 [u2|e2]]; cbn [fst] in M2; [discriminate|].
  intros [= <- _]. lia.
Qed.
Lemma settings_max s s' : settings s' = settings s ->
  m_maxit s' = m_maxit s /\ m_extra s' = m_extra s /\ m_stab s' = m_stab s /\ m_sdiff s' = m_sdiff s /\
  m_decision s' = m_decision s /\ m_debug s' = m_debug s.
Proof. unfold settings. intros H. injection H as H1 H2 H3 H4 H5 H6 H7 H8 H9 H10 H11 H12. repeat split; assumption. Qed.
Lemma inf_step_settings s : settings (fst (inf_step s)) = settings s.
Proof. apply inf_step_frame. Qed.
Lemma keep_false_late s : (m_maxit s <= m_iters s)%Z -> keep_execution s = Ok false.
Proof. intros H. unfold keep_execution. destruct (Z.leb_spec (m_maxit s) (m_iters s)); [reflexivity|lia]. Qed.
Lemma budget_step e it mx E (keep : bool) : (0 < e <= E - 1)%Z -> ((mx <= it)%Z -> keep = false) ->
  (budget (if keep then E - 1 else e - 1) (it + 1) mx E <= budget e it mx E - 1)%Z.
Proof.
  intros He Hk. unfold budget.
  destruct (Z.ltb_spec 0 e); [|lia].
  destruct (Z.ltb_spec it mx) as [H1|H1].
  - destruct (Z.ltb_spec (it + 1) mx) as [H2|H2]; destruct keep;
      match goal with |- context [(0 <? ?x)%Z] => destruct (Z.ltb_spec 0 x) | _ => idtac end; try lia.
  - rewrite (Hk H1). destruct (Z.ltb_spec (it + 1) mx); lia.
Qed.
Lemma budget_nonneg e it mx E : (1 <= E)%Z -> (0 <= budget e it mx E)%Z.
Proof. intros. unfold budget. destruct (Z.ltb_spec it mx), (Z.ltb_spec 0 e); lia. Qed.
Lemma iter_loop_bound fuel e s : (e <= m_extra s - 1)%Z -> (1 <= m_extra s)%Z ->
  (m_iters (fst (iter_loop fuel e s)) <= m_iters s + budget e (m_iters s) (m_maxit s) (m_extra s))%Z.
Proof.
  revert e s. induction fuel as [|f IH]; intros e s He HE; cbn [iter_loop];
    pose proof (budget_nonneg e (m_iters s) (m_maxit s) (m_extra s) HE) as B;
    destruct (Z.ltb_spec 0 e) as [He0|He0]; cbn [fst]; try lia.
  destruct (keep_execution s) as [k|x] eqn:Ek; cbn [fst]; [|lia].
  pose proof (inf_step_settings s) as S. destruct (inf_step s) as [s1 [u|x]] eqn:E1; cbn [fst] in *.
  2: { rewrite (inf_step_err_iters _ _ _ E1). lia. }
  destruct u. pose proof (inf_step_iters _ _ E1) as I1.
  destruct (settings_max _ _ S) as (M1 & M2 & _).
  set (e' := if k then (m_extra s - 1)%Z else (e - 1)%Z).
  assert (He' : (e' <= m_extra s1 - 1)%Z) by (unfold e'; rewrite M2; destruct k; lia).
  specialize (IH e' s1 He' ltac:(lia)). rewrite I1, M1, M2 in IH.
  assert (Bk : (m_maxit s <= m_iters s)%Z -> k = false).
  { intros H. rewrite (keep_false_late s H) in Ek. congruence. }
  pose proof (budget_step e (m_iters s) (m_maxit s) (m_extra s) k (conj He0 He) Bk) as BS. fold e' in BS. lia.
Qed.
(** the fuel never matters once it reaches the budget *)
Lemma iter_loop_fuel f1 f2 e s : (e <= m_extra s - 1)%Z -> (1 <= m_extra s)%Z ->
  (budget e (m_iters s) (m_maxit s) (m_extra s) <= Z.of_nat f1)%Z ->
  (budget e (m_iters s) (m_maxit s) (m_extra s) <= Z.of_nat f2)%Z ->
  iter_loop f1 e s = iter_loop f2 e s.
Proof.
  revert f2 e s. induction f1 as [|f1 IH]; intros f2 e s He HE B1 B2.
  - cbn [iter_loop]. destruct (Z.ltb_spec 0 e) as [H|H].
    + exfalso. unfold budget in B1. destruct (Z.ltb_spec (m_iters s) (m_maxit s)), (Z.ltb_spec 0 e); lia.
    + destruct f2; cbn [iter_loop]; destruct (Z.ltb_spec 0 e); try lia; reflexivity.
  - destruct f2 as [|f2].
    + cbn [iter_loop]. destruct (Z.ltb_spec 0 e) as [H|H]; [|reflexivity].
      exfalso. unfold budget in B2. destruct (Z.ltb_spec (m_iters s) (m_maxit s)), (Z.ltb_spec 0 e); lia.
    + cbn [iter_loop]. destruct (Z.ltb_spec 0 e) as [He0|He0]; [|reflexivity].
      destruct (keep_execution s) as [k|x] eqn:Ek; [|reflexivity].
      pose proof (inf_step_settings s) as S. destruct (inf_step s) as [s1 [u|x]] eqn:E1; cbn [fst] in *; [|reflexivity].
      destruct u. pose proof (inf_step_iters _ _ E1) as I1.
      destruct (settings_max _ _ S) as (M1 & M2 & _).
      set (e' := if k then (m_extra s - 1)%Z else (e - 1)%Z).
      assert (He' : (e' <= m_extra s1 - 1)%Z) by (unfold e'; rewrite M2; destruct k; lia).
      assert (Bk : (m_maxit s <= m_iters s)%Z -> k = false).
      { intros H. rewrite (keep_false_late s H) in Ek. congruence. }
      pose proof (budget_step e (m_iters s) (m_maxit s) (m_extra s) k (conj He0 He) Bk) as BS. fold e' in BS.
      apply IH; auto; rewrite ?I1, ?M1, ?M2; lia.
Qed.
(** successful loops are successful passes *)
Lemma iter_loop_steps fuel e s s' : iter_loop fuel e s = (s', Ok tt) -> exists L, steps s L s'.
Proof.
  revert e s. induction fuel as [|f IH]; intros e s; cbn [iter_loop]; destruct (0 <? e)%Z.
  - discriminate.
  - intros [= <-]. exists 0. constructor.
  - destruct (keep_execution s) as [k|x]; [|discriminate].
    destruct (inf_step s) as [s1 [u|x]] eqn:E1; [|discriminate]. destruct u. intros H.
    apply IH in H as [L H]. exists (S L). eapply steps_cons; eauto.
  - intros [= <-]. exists 0. constructor.
Qed.
(** with stop_at_stabilize off the number of passes is exact *)
Lemma iter_loop_exact fuel e s s' : m_stab s = false -> (0 < e <= m_extra s - 1)%Z ->
  ((m_iters s < m_maxit s)%Z -> e = (m_extra s - 1)%Z) ->
  iter_loop fuel e s = (s', Ok tt) ->
  m_iters s' = (m_iters s + budget e (m_iters s) (m_maxit s) (m_extra s))%Z.
Proof.
  revert e s. induction fuel as [|f IH]; intros e s St He Hm; cbn [iter_loop]; destruct (Z.ltb_spec 0 e) as [Hp|Hp]; try lia; [discriminate|].
  destruct (keep_execution s) as [k|x] eqn:Ek; [|discriminate].
  pose proof (inf_step_settings s) as S. destruct (inf_step s) as [s1 [u|x]] eqn:E1; cbn [fst] in *; [|discriminate].
  destruct u. pose proof (inf_step_iters _ _ E1) as I1.
  destruct (settings_max _ _ S) as (M1 & M2 & M3 & _).
  unfold keep_execution in Ek. rewrite St in Ek.
  destruct (Z.leb_spec (m_maxit s) (m_iters s)) as [Hl|Hl]; injection Ek as <-.
  - intros H. destruct (Z.eq_dec e 1) as [->|Hne].
    + assert (s1 = s') as <-. { destruct f; cbn in H; congruence. }
      rewrite I1. unfold budget. destruct (Z.ltb_spec (m_iters s) (m_maxit s)); lia.
    + rewrite (IH (e - 1)%Z s1) by (auto; try congruence; try lia; rewrite ?M1, ?M2, ?I1; lia).
      rewrite I1, M1, M2. unfold budget.
      destruct (Z.ltb_spec (m_iters s + 1) (m_maxit s)), (Z.ltb_spec (m_iters s) (m_maxit s)); lia.
  - intros H.
    rewrite (IH (m_extra s - 1)%Z s1) by (auto; try congruence; try lia; rewrite ?M1, ?M2, ?I1; lia).
    rewrite I1, M1, M2. unfold budget.
    destruct (Z.ltb_spec (m_iters s + 1) (m_maxit s)), (Z.ltb_spec (m_iters s) (m_maxit s)), (Z.ltb_spec 0 e), (Z.ltb_spec 0 (m_extra s - 1)); lia.
Qed.

(** ** Early stop: the last checks found the map stable *)
Definition stable_at (sd : F) (e : dict (list F)) : Prop :=
  forall c h, dget e c = Some h ->
    exists h0 b a, h = h0 ++ [b; a] /\ nltb sd (nabs (nsub a b)) = false.
Lemma last_two_spec (h : list F) a b : last_two h = Ok (a, b) <-> exists h0, h = h0 ++ [b; a].
Proof.
  unfold last_two. split.
  - destruct (rev h) as [|x [|y t]] eqn:E; try discriminate. intros [= -> ->].
    exists (rev t). rewrite <- (rev_involutive h), E. simpl. rewrite <- app_assoc. reflexivity.
  - intros [h0 ->]. rewrite rev_app_distr. reflexivity.
Qed.
Lemma is_stable_fold sd (l : list (list F)) st :
  match rfold (fun st h => ('(a, b) <- last_two h ;; Ok (if nltb sd (nabs (nsub a b)) then false else st))%res) l st with
  | Ok b => (forall h, In h l -> exists h0 x y, h = h0 ++ [y; x]) /\
            (b = true <-> st = true /\ forall h0 x y, In (h0 ++ [y; x]) l -> nltb sd (nabs (nsub x y)) = false)
  | Err e => e = EIndex /\ exists h, In h l /\ length h < 2
  end.
Proof.
  revert st. induction l as [|h l IH]; intros st; cbn [rfold].
  - split; [intros h []|]. split; [intros ->; split; auto; intros h0 x y []|tauto].
  - destruct (last_two h) as [[a b]|e] eqn:E; cbn [rbind].
    + apply last_two_spec in E as [h0 E].
      specialize (IH (if nltb sd (nabs (nsub a b)) then false else st)).
      destruct (rfold _ l _) as [r|e].
      * destruct IH as [I1 I2]. split.
        -- intros h' [<-|H]; [eauto|auto].
        -- rewrite I2. split.
           ++ intros [H1 H2]. destruct (nltb sd (nabs (nsub a b))) eqn:Eb; [discriminate|]. split; auto.
              intros h' x y [H|H]; [|eauto]. rewrite E in H.
              apply (f_equal (@rev F)) in H. rewrite !rev_app_distr in H. cbn in H. injection H as -> -> _. exact Eb.
           ++ intros [-> H2]. rewrite (H2 h0 a b) by (left; congruence). split; auto.
              intros h' x y H. apply (H2 h' x y). now right.
      * destruct IH as (-> & h' & Hin & Hl). split; auto. exists h'. split; auto. now right.
    + unfold last_two in E. split.
      * destruct (rev h) as [|x [|y t]]; congruence.
      * exists h. split; [now left|]. rewrite <- rev_length. destruct (rev h) as [|x [|y t]]; cbn; try lia. discriminate.
Qed.
Lemma is_stable_true s : NoDup (dkeys (m_exec s)) -> is_stable s = Ok true -> stable_at (m_sdiff s) (m_exec s).
Proof.
  intros ND. unfold is_stable. destruct (1 <? m_iters s)%Z; [|discriminate].
  pose proof (is_stable_fold (m_sdiff s) (map snd (m_exec s)) true) as H.
  intros E. rewrite E in H. destruct H as [H1 H2]. intros c h Hh.
  assert (Hin : In h (map snd (m_exec s))).
  { apply dget_In in Hh. apply in_map_iff. exists (c, h). auto. }
  destruct (H1 h Hin) as (h0 & x & y & ->). exists h0, y, x. split; auto.
  destruct (proj1 H2 eq_refl) as [_ H3]. eapply H3, Hin.
Qed.
(** the states at which the last checks were made *)
Definition stable_last (sd : F) (E : nat) (e : dict (list F)) : Prop :=
  forall c h k, dget e c = Some h -> k < E ->
    exists h0 b a t, h = h0 ++ [b; a] ++ t /\ length t = S k /\ nltb sd (nabs (nsub a b)) = false.
Lemma stable_last_step sd E s y : keys_eq s -> stable_at sd (m_exec s) -> stable_last sd E (m_exec s) ->
  stable_last sd (S E) (m_exec (stepped y s)).
Proof.
  intros K H0 H c h k Hh Hk. unfold stepped, upd_exec in Hh. cbn [m_exec set_iters set_exec] in Hh.
  rewrite dget_dmap in Hh. destruct (dget (m_exec s) c) as [h'|] eqn:E'; [|discriminate]. injection Hh as <-.
  destruct k as [|k].
  - destruct (H0 c h' E') as (h0 & b & a & -> & Hb). exists h0, b, a, [y c].
    rewrite <- app_assoc. auto.
  - destruct (H c h' k E') as (h0 & b & a & t & -> & Ht & Hb); [lia|].
    exists h0, b, a, (t ++ [y c]). rewrite <- !app_assoc. rewrite app_length. cbn [length]. repeat split; auto. lia.
Qed.
Lemma iter_loop_stable fuel e s s' j : runnable s -> (0 <= e <= m_extra s - 1)%Z ->
  Z.of_nat j = (m_extra s - 1 - e)%Z -> stable_last (m_sdiff s) j (m_exec s) ->
  iter_loop fuel e s = (s', Ok tt) -> ((m_iters s' <= m_maxit s)%Z \/ e = 0%Z) ->
  stable_last (m_sdiff s) (Z.to_nat (m_extra s - 1)) (m_exec s').
Proof.
  revert e s j. induction fuel as [|f IH]; intros e s j R He Hj Hs; cbn [iter_loop]; destruct (Z.ltb_spec 0 e) as [He0|He0].
  - discriminate.
  - intros [= <-] _. replace (Z.to_nat (m_extra s - 1)) with j by lia. exact Hs.
  - destruct (keep_execution s) as [k|x] eqn:Ek; [|discriminate].
    pose proof (inf_step_settings s) as S. destruct (inf_step s) as [s1 [u|x]] eqn:E1; cbn [fst] in *; [|discriminate].
    destruct u. pose proof (inf_step_iters _ _ E1) as I1.
    destruct (settings_max _ _ S) as (M1 & M2 & M3 & M4 & _).
    pose proof (inf_step_spec s R) as I. rewrite E1 in I.
    destruct (rmap _ _) as [ys|x]; [|destruct I as [s'' I]; discriminate].
    destruct I as (y & _ & I). injection I as I.
    assert (R1 : runnable s1) by (rewrite I; now apply stepped_runnable).
    intros H Hend. assert (Hit : (m_iters s' <= m_maxit s)%Z) by (destruct Hend; lia). clear Hend.
    (* the pass was made below max_iter *)
    assert (Hmono : (m_iters s1 <= m_iters s')%Z).
    { apply iter_loop_steps in H as [L H]. destruct (steps_orbit s1 L s' R1 H) as (x & _ & _ & _ & _ & _ & XI). lia. }
    unfold keep_execution in Ek. destruct (Z.leb_spec (m_maxit s) (m_iters s)); [lia|].
    rewrite <- M4. rewrite <- M2.
    destruct (m_stab s) eqn:St.
    + destruct (is_stable s) as [b|x] eqn:Eb; [|discriminate]. cbn [rbind] in Ek. injection Ek as <-.
      destruct b; cbn [negb] in H.
      * apply (IH (e - 1)%Z s1 (Datatypes.S j)); auto; try lia.
        rewrite M4, I. apply stable_last_step; [apply R| |exact Hs].
        apply is_stable_true; auto. destruct R as [ND _ K _ _]. rewrite K. exact ND.
      * apply (IH (m_extra s - 1)%Z s1 0); auto; try lia.
        intros c h k _ Hk. lia.
    + injection Ek as <-. apply (IH (m_extra s - 1)%Z s1 0); auto; try lia.
      intros c h k _ Hk. lia.
  - intros [= <-] _. replace (Z.to_nat (m_extra s - 1)) with j by lia. exact Hs.
Qed.
End Iter.
