(** The order of the state variables does not matter to whole simulations. *)
From stdpp Require Import prelude gmap.
From Coq Require Import ZArith.
From Verif Require Import Num Res Store Leaf Sched Stepper Sim SpecSched P_Store P_Prog P_Evolve P_Rel P_Perm P_Pack P_Redo P_Field SpecOrder.

(** ** Blocks of a vector in another order *)
Section blocks.
  Context {D : Type} `{NumOps D} (n : nat -> nat).
  Fixpoint start (zs : list nat) (z : nat) : nat :=
    match zs with [] => 0 | z' :: zs' => if decide (z' = z) then 0 else n z' + start zs' z end.
  Definition places (zs : list nat) (z : nat) : list nat := seq (start zs z) (n z).
  Definition reorder (zs1 zs2 : list nat) : list nat := flat_map (places zs1) zs2.
  Definition total (zs : list nat) : nat := sum_list (map n zs).

  Lemma total_perm zs1 zs2 : zs1 ≡ₚ zs2 -> total zs1 = total zs2.
  Proof. unfold total. induction 1; cbn; lia. Qed.
  Lemma total_app zs1 zs2 : total (zs1 ++ zs2) = total zs1 + total zs2.
  Proof. unfold total. induction zs1; cbn; lia. Qed.
  Lemma places_cons z zs z' : z' ≠ z -> places (z :: zs) z' = map (Nat.add (n z)) (places zs z').
  Proof.
    intros Hne. unfold places. cbn [start]. rewrite decide_False by done. rewrite <- (fmap_add_seq _ (start zs z')). done.
  Qed.
  Lemma flat_map_ext_in {A B} (f f' : A -> list B) l : (forall x, x ∈ l -> f x = f' x) -> flat_map f l = flat_map f' l.
  Proof.
    induction l as [|x l IH]; intros Hf; [done|]. cbn. rewrite Hf by apply elem_of_list_here. f_equal. apply IH. intros y Hy. apply Hf. by apply elem_of_list_further.
  Qed.
  Lemma flat_map_map {A B C} (h : B -> C) (f : A -> list B) l : flat_map (fun x => map h (f x)) l = map h (flat_map f l).
  Proof. induction l as [|x l IH]; [done|]. cbn. by rewrite map_app, IH. Qed.
  Lemma reorder_self zs : NoDup zs -> reorder zs zs = seq 0 (total zs).
  Proof.
    induction 1 as [|z zs Hz Hn IH]; [done|]. unfold reorder in *. cbn [flat_map]. unfold places at 1. cbn [start]. rewrite decide_True by done.
    rewrite (flat_map_ext_in _ (fun x => map (Nat.add (n z)) (places zs x))).
    - rewrite flat_map_map, IH. unfold total. cbn [map sum_list]. fold (total zs). rewrite seq_app. f_equal. pose proof (fmap_add_seq (n z) 0 (total zs)) as E. rewrite Nat.add_0_r in E. exact E.
    - intros x Hx. apply places_cons. by intros ->.
  Qed.
  Lemma reorder_perm zs1 zs2 : NoDup zs1 -> zs2 ≡ₚ zs1 -> reorder zs1 zs2 ≡ₚ seq 0 (total zs1).
  Proof. intros Hn Hp. rewrite <- (reorder_self zs1 Hn). unfold reorder. by apply Permutation_flat_map. Qed.

  Lemma flat_map_len (F : nat -> list D) zs : (forall z, z ∈ zs -> length (F z) = n z) -> length (flat_map F zs) = total zs.
  Proof.
    induction zs as [|z zs IH]; intros Hf; [done|]. cbn. rewrite app_length, IH by (intros x Hx; apply Hf; by apply elem_of_list_further).
    by rewrite Hf by apply elem_of_list_here.
  Qed.
  Lemma perm_app_l i k (u v : list D) : i + k <= length u -> perm (seq i k) (u ++ v) = perm (seq i k) u.
  Proof.
    intros Hl. unfold perm. apply map_ext_in. intros j Hj%in_seq. apply app_nth1. lia.
  Qed.
  Lemma perm_skip p (u v : list D) : perm (map (Nat.add (length u)) p) (u ++ v) = perm p v.
  Proof. unfold perm. rewrite map_map. apply map_ext. intros i. rewrite app_nth2 by lia. f_equal. lia. Qed.
  Lemma perm_places (F : nat -> list D) zs z : (forall z, z ∈ zs -> length (F z) = n z) -> z ∈ zs -> perm (places zs z) (flat_map F zs) = F z.
  Proof.
    induction zs as [|z' zs IH]; intros Hf Hz; [by apply elem_of_nil in Hz|]. pose proof (Hf z' (elem_of_list_here _ _)) as El.
    destruct (decide (z = z')) as [->|Hne].
    - unfold places. cbn [start flat_map]. rewrite decide_True by done. rewrite perm_app_l by (rewrite El; lia). rewrite <- El. apply perm_seq.
    - rewrite places_cons by done. cbn [flat_map]. rewrite <- El, perm_skip. apply IH; [|by apply elem_of_cons in Hz as [->|]].
      intros x Hx. apply Hf. by apply elem_of_list_further.
  Qed.
  Lemma perm_flat_map (p : nat -> list nat) zs (v : list D) : perm (flat_map p zs) v = flat_map (fun z => perm (p z) v) zs.
  Proof. unfold perm. induction zs as [|z zs IH]; [done|]. cbn. by rewrite map_app, IH. Qed.
  Lemma perm_reorder (F : nat -> list D) zs1 zs2 : (forall z, z ∈ zs1 -> length (F z) = n z) -> (forall z, z ∈ zs2 -> z ∈ zs1) ->
    perm (reorder zs1 zs2) (flat_map F zs1) = flat_map F zs2.
  Proof. intros Hf Hs. unfold reorder. rewrite perm_flat_map. apply flat_map_ext_in. intros z Hz. apply perm_places; auto. Qed.
  (** Every vector consists of blocks. *)
  Lemma blocks_of zs (x : list D) : NoDup zs -> length x = total zs -> x = flat_map (fun z => perm (places zs z) x) zs.
  Proof. intros Hn Hl. rewrite <- perm_flat_map. fold (reorder zs zs). rewrite reorder_self by done. by rewrite <- Hl, perm_seq. Qed.
  Lemma places_len zs z (x : list D) : length (perm (places zs z) x) = n z.
  Proof. rewrite perm_len. apply seq_length. Qed.
End blocks.

(** ** Writing and reading signals in another order *)
Section store.
  Context {D : Type} `{NumOps D} (g : cfg D).
  Implicit Types σ : store D.
  Notation dbg := (g_dbg g).
  Lemma forM_perm {S A} (f : A -> M S unit) (l l' : list A) s s' :
    (forall x y s0 s1 s2, x ≠ y -> f x s0 = Ok tt s1 -> f y s1 = Ok tt s2 -> exists s1', f y s0 = Ok tt s1' /\ f x s1' = Ok tt s2) ->
    l ≡ₚ l' -> NoDup l -> forM l f s = Ok tt s' -> forM l' f s = Ok tt s'.
  Proof.
    intros Hf Hp. revert s. induction Hp as [|x l l' Hp IH|x y l|l1 l2 l3 H1 IH1 H2 IH2]; intros s Hn Hr.
    - done.
    - cbn [forM] in *. unfold bnd in *. apply NoDup_cons in Hn as [_ Hn]. destruct (f x s) as [[] s1| | |]; try done. by apply IH.
    - cbn [forM] in *. unfold bnd in *. apply NoDup_cons in Hn as [Hyx _]. destruct (f y s) as [[] s1| | |] eqn:E1; try done.
      destruct (f x s1) as [[] s2| | |] eqn:E2; try done. destruct (Hf y x s s1 s2) as (s1' & E1' & E2'); [|done|done|by rewrite E1', E2'].
      intros ->. apply Hyx, elem_of_list_here.
    - apply IH2; [by rewrite <- H1|]. by apply IH1.
  Qed.
  Lemma set_comm z1 v1 z2 v2 σ σ1 σ2 : z1 ≠ z2 -> set_value dbg z1 v1 σ = Ok tt σ1 -> set_value dbg z2 v2 σ1 = Ok tt σ2 ->
    exists σ1', set_value dbg z2 v2 σ = Ok tt σ1' /\ set_value dbg z1 v1 σ1' = Ok tt σ2.
  Proof.
    intros Hne. unfold set_value. destruct (σ !! z1) as [c1|] eqn:E1; [|done].
    destruct (negb (kind_fits _ _)) eqn:A1; [done|]. destruct (dbg && negb (payload_size_ok c1)) eqn:A2; [done|].
    destruct (dbg && c_asg c1) eqn:A3; [done|]. destruct (dbg && negb (size_fits _ _)) eqn:A4; [done|]. intros [= <-].
    rewrite lookup_insert_ne by done. destruct (σ !! z2) as [c2|] eqn:E2; [|done].
    destruct (negb (kind_fits (c_kind c2) _)) eqn:B1; [done|]. destruct (dbg && negb (payload_size_ok c2)) eqn:B2; [done|].
    destruct (dbg && c_asg c2) eqn:B3; [done|]. destruct (dbg && negb (size_fits (c_kind c2) _)) eqn:B4; [done|]. intros [= <-].
    eexists. split; [done|]. rewrite lookup_insert_ne by done. rewrite E1, A1, A2, A3, A4. f_equal. by apply insert_commute.
  Qed.
  Lemma set_size z v σ σ' z' : set_value dbg z v σ = Ok tt σ' -> sig_size σ' z' = sig_size σ z'.
  Proof.
    unfold set_value. destruct (σ !! z) as [c|] eqn:E; [|done]. repeat (destruct (_ : bool); [done|]). intros [= <-]. unfold sig_size.
    destruct (decide (z = z')) as [<-|Hne]; [by rewrite lookup_insert, E|by rewrite lookup_insert_ne].
  Qed.

  Definition put_scalars (F : nat -> list D) (ss : list nat) : M (store D) unit := forM ss (fun z => set_value dbg z (VS (nth 0 (F z) n0))).
  Definition put_arrays (F : nat -> list D) (ss : list nat) : M (store D) unit := forM ss (fun z => set_value dbg z (VA (F z))).
  Lemma set_scalars_put F ss r σ : (forall z, z ∈ ss -> length (F z) = 1) -> set_scalars g ss (flat_map F ss ++ r) σ = (put_scalars F ss ;;; ret r) σ.
  Proof.
    revert σ. induction ss as [|z ss IH]; intros σ Hf; [done|]. cbn [flat_map set_scalars put_scalars forM].
    pose proof (Hf z (elem_of_list_here _ _)) as Hz. destruct (F z) as [|x [|]] eqn:E; try done. cbn [app nth]. unfold bnd at 1 2 3.
    destruct (set_value dbg z (VS x) σ) as [[] σ1| | |]; try done. rewrite IH by (intros z' Hz'; apply Hf; by apply elem_of_list_further). done.
  Qed.
  Lemma set_arrays_put F ss r σ : (forall z, z ∈ ss -> sig_size σ z = length (F z)) -> set_arrays g ss (flat_map F ss ++ r) σ = (put_arrays F ss ;;; ret r) σ.
  Proof.
    revert σ. induction ss as [|z ss IH]; intros σ Hf; [done|]. cbn [flat_map set_arrays put_arrays forM].
    pose proof (Hf z (elem_of_list_here _ _)) as Hz. unfold bnd at 1, gets at 1. rewrite Hz.
    rewrite <- (app_assoc (F z)), (proj2 (Nat.leb_le _ _)) by (rewrite app_length; lia). rewrite take_app, drop_app. unfold bnd at 1 2 3.
    destruct (set_value dbg z (VA (F z)) σ) as [[] σ1| | |] eqn:E; try done. rewrite IH; [done|].
    intros z' Hz'. rewrite (set_size _ _ _ _ z' E). apply Hf. by apply elem_of_list_further.
  Qed.
  Lemma put_scalars_size F ss σ u σ' z : put_scalars F ss σ = Ok u σ' -> sig_size σ' z = sig_size σ z.
  Proof.
    unfold put_scalars. revert σ. induction ss as [|y ss IH]; intros σ; [by intros [= <- <-]|]. cbn [forM]. unfold bnd.
    destruct (set_value _ _ _ σ) as [[] σ1| | |] eqn:E; try done. intros Hr. rewrite (IH _ Hr). by eapply set_size.
  Qed.
  Lemma clear_perm vs vs' σ : vs' ≡ₚ vs -> (forall z, z ∈ vs -> z ∈ dom σ) -> forM vs' clear_sig σ = forM vs clear_sig σ.
  Proof.
    intros Hp Hd. destruct (clear_sigs vs σ Hd) as (σ1 & E1 & F1 & C1).
    destruct (clear_sigs vs' σ) as (σ2 & E2 & F2 & C2). { intros z Hz. apply Hd. by rewrite <- Hp. }
    rewrite E1, E2. f_equal. apply map_eq. intros z. destruct (decide (z ∈ vs)) as [Hz|Hz].
    - pose proof (Hd z Hz) as [c Hc]%elem_of_dom. rewrite (C1 z c), (C2 z c); [done|by rewrite Hp|done|done|done].
    - rewrite F1, F2; [done|by rewrite Hp|done].
  Qed.
  (** A reading function that does not change the store. *)
  Definition reads (f : nat -> M (store D) (list D)) : Prop := forall z y σ σ', f z σ = Ok y σ' -> σ' = σ.
  Definition reading (f : nat -> M (store D) (list D)) σ (z : nat) : list D := match f z σ with Ok y _ => y | _ => [] end.
  Lemma collect_reading f zs σ x σ' : reads f -> collect f zs σ = Ok x σ' ->
    σ' = σ /\ x = flat_map (reading f σ) zs /\ forall z, z ∈ zs -> f z σ = Ok (reading f σ z) σ.
  Proof.
    intros Hf. revert x σ'. induction zs as [|z zs IH]; intros x σ'; cbn [collect].
    { intros [= <- <-]. split_and!; [done|done|]. by intros z Hz%elem_of_nil. }
    unfold bnd. destruct (f z σ) as [y σ1| | |] eqn:E; try done. pose proof (Hf _ _ _ _ E) as ->.
    destruct (collect f zs σ) as [r σ2| | |] eqn:Er; try done. intros [= <- <-]. destruct (IH _ _ eq_refl) as (-> & -> & Ha).
    assert (reading f σ z = y) as Ey by (unfold reading; by rewrite E). split_and!; [done|cbn; by rewrite Ey|].
    intros z' [->|Hz']%elem_of_cons; [by rewrite Ey|by apply Ha].
  Qed.
  Lemma collect_again f zs σ : (forall z, z ∈ zs -> f z σ = Ok (reading f σ z) σ) -> collect f zs σ = Ok (flat_map (reading f σ) zs) σ.
  Proof.
    induction zs as [|z zs IH]; intros Hf; [done|]. cbn [collect flat_map]. unfold bnd. rewrite Hf by apply elem_of_list_here.
    rewrite IH by (intros z' Hz'; apply Hf; by apply elem_of_list_further). done.
  Qed.
End store.

(** ** What the log contains does not matter *)
Section blind.
  Context {D : Type} `{NumOps D} (L : list (event D)) (p : list nat) (dbg : bool).
  Definition logs (l1 l2 : list (event D)) : Prop := exists v1 v2, l1 = L ++ v1 /\ l2 = L ++ v2 /\ Forall2 (same_event p) v1 v2.
  Definition csame (c1 c2 : core D) : Prop :=
    k_store c2 = k_store c1 /\ k_lst c2 = k_lst c1 /\ k_done c2 = k_done c1 /\ logs (k_log c1) (k_log c2).
  Definition dsame (d1 d2 : dyn D) : Prop := csame (d_core d1) (d_core d2) /\ d_sdone d2 = d_sdone d1.

  Lemma logs_snoc l1 l2 e1 e2 : logs l1 l2 -> same_event p e1 e2 -> logs (l1 ++ [e1]) (l2 ++ [e2]).
  Proof.
    intros (v1 & v2 & -> & -> & Hv) He. exists (v1 ++ [e1]), (v2 ++ [e2]). rewrite !app_assoc. split_and!; [done|done|]. apply Forall2_app; [done|by constructor].
  Qed.
  Definition plain (e : event D) : Prop := same_event p e e.
  Lemma blind_modify (f : core D -> core D) : (forall c1 c2, csame c1 c2 -> csame (f c1) (f c2)) -> mrel csame (modify f) (modify f).
  Proof. intros Hf. by apply mrel_modify. Qed.
  Lemma blind_emit e : plain e -> mrel csame (emit e) (emit e).
  Proof. intros He. apply mrel_modify. intros c1 c2 (E1 & E2 & E3 & E4). split_and!; try done. cbn. by apply logs_snoc. Qed.
  Lemma blind_snap ev : (forall σ m, plain (ev σ m)) -> mrel csame (snap ev) (snap ev).
  Proof.
    intros He. apply mrel_modify. intros c1 c2 (E1 & E2 & E3 & E4). split_and!; try done. cbn. unfold members. rewrite E1, E2. apply logs_snoc; [done|apply He].
  Qed.
  Lemma blind_store {A} (m : M (store D) A) : mrel csame (on_store m) (on_store m).
  Proof.
    intros c1 c2 (E1 & E2 & E3 & E4). unfold on_store, lift. rewrite E1. destruct (m (k_store c1)) as [a σ| | |]; try done.
    eexists. split; [done|]. by split_and!.
  Qed.
  Lemma blind_leaf ev l q : plain ev -> mrel csame (run_leaf dbg ev l q) (run_leaf dbg ev l q).
  Proof.
    intros He c1 c2 (E1 & E2 & E3 & E4). unfold run_leaf, lst_of. rewrite E1, E2. destruct (run_prog dbg _ _) as [st σ| | |]; try done.
    eexists. split; [done|]. split_and!; cbn; [done|congruence|done|]. by apply logs_snoc.
  Qed.
  Lemma blind_pre : forall tr t, mrel csame (pre_step dbg tr t) (pre_step dbg tr t).
  Proof.
    fix IH 1. intros [l|b k ch] t; cbn [pre_step]; [by apply blind_leaf|].
    induction ch as [|c ch IHc]; [apply mrel_ret|]. apply mrel_bnd; [apply IH|intros _; apply IHc].
  Qed.
  Lemma blind_post : forall tr t, mrel csame (post_step dbg tr t) (post_step dbg tr t).
  Proof.
    fix IH 1. intros [l|b k ch] t; cbn [post_step]; [by apply blind_leaf|].
    induction ch as [|c ch IHc]; [apply mrel_ret|]. apply mrel_bnd; [apply IH|intros _; apply IHc].
  Qed.
  Lemma blind_leaf_process l t : mrel csame (leaf_process dbg l t) (leaf_process dbg l t).
  Proof.
    intros c1 c2 Hc. pose proof Hc as (E1 & E2 & E3 & E4). unfold leaf_process, is_done, Sched.ready. rewrite E1, E3.
    destruct (_ || _); [by exists c2|]. revert c1 c2 Hc E1 E2 E3 E4.
    assert (mrel csame (activate dbg l t ;;; set_done (l_id l) ;;; ret 1) (activate dbg l t ;;; set_done (l_id l) ;;; ret 1)) as Hm.
    { apply mrel_bnd; [by apply blind_leaf|intros _]. apply mrel_bnd; [|intros _; apply mrel_ret]. apply mrel_modify.
      intros c1 c2 (E1 & E2 & E3 & E4). split_and!; try done. cbn. by rewrite E3. }
    intros c1 c2 Hc _ _ _ _. by apply Hm.
  Qed.
  Lemma blind_on_core {A} (m : M (core D) A) : mrel csame m m -> mrel dsame (on_core m) (on_core m).
  Proof.
    intros Hm d1 d2 [Hc Hs]. specialize (Hm _ _ Hc). unfold on_core, lift. destruct (m (d_core d1)) as [a c1| | |]; try done.
    destruct Hm as (c2 & -> & Hc'). eexists. split; [done|]. by split.
  Qed.
  Lemma sdone_eq d1 d2 b : dsame d1 d2 -> is_sdone d2 b = is_sdone d1 b.
  Proof. intros [_ Hs]. unfold is_sdone. by rewrite Hs. Qed.
  Lemma done_eq d1 d2 b : dsame d1 d2 -> is_done (d_core d2) b = is_done (d_core d1) b.
  Proof. intros [(_ & _ & Hd & _) _]. unfold is_done. by rewrite Hd. Qed.
  Lemma blind_set_sdone b : mrel dsame (set_sdone b) (set_sdone b).
  Proof. apply mrel_modify. intros d1 d2 [Hc Hs]. split; [done|]. cbn. by rewrite Hs. Qed.
  Lemma blind_unset_sdone b : mrel dsame (unset_sdone b) (unset_sdone b).
  Proof. apply mrel_modify. intros d1 d2 [Hc Hs]. split; [done|]. cbn. by rewrite Hs. Qed.
  Lemma blind_process : forall tr t, mrel dsame (process dbg tr t) (process dbg tr t).
  Proof.
    fix IH 1. intros [l|b k ch] t; cbn [process]; [apply blind_on_core, blind_leaf_process|].
    apply mrel_bnd; [apply mrel_gets; intros d1 d2 Hd; symmetry; by apply sdone_eq|]. intros q. destruct q; [apply mrel_ret|].
    apply mrel_bnd; [apply blind_set_sdone|intros _]. generalize 0. induction ch as [|c ch IHc]; intros k0; [apply mrel_ret|].
    apply mrel_bnd; [apply IH|intros j]. apply mrel_bnd.
    - apply mrel_gets. intros d1 d2 Hd. destruct c; cbn; symmetry; [by apply done_eq|by apply sdone_eq].
    - intros q. apply mrel_bnd; [destruct q; [apply mrel_ret|apply blind_unset_sdone]|intros _; apply IHc].
  Qed.
  Lemma blind_process_all tr t : mrel dsame (process_all dbg tr t) (process_all dbg tr t).
  Proof.
    unfold process_all. generalize (S (length (leaves tr))). intros fuel. induction fuel as [|fuel IH]; cbn [process_loop]; [apply mrel_oof|].
    apply mrel_bnd; [apply blind_process|intros k]. destruct k; [apply mrel_ret|apply IH].
  Qed.
  Lemma blind_mark : forall tr d1 d2, dsame d1 d2 -> dsame (mark_unprocessed tr d1) (mark_unprocessed tr d2).
  Proof.
    fix IH 1. intros [l|b k ch] d1 d2 Hd; cbn [mark_unprocessed].
    - destruct Hd as [(E1 & E2 & E3 & E4) Hs]. split; [|done]. split_and!; try done. cbn. by rewrite E3.
    - assert (dsame (Dyn (d_core d1) (d_sdone d1 ∖ {[b]})) (Dyn (d_core d2) (d_sdone d2 ∖ {[b]}))) as Hd'.
      { destruct Hd as [Hc Hs]. split; [done|]. cbn. by rewrite Hs. }
      revert Hd'. generalize (Dyn (d_core d1) (d_sdone d1 ∖ {[b]})), (Dyn (d_core d2) (d_sdone d2 ∖ {[b]})). clear Hd d1 d2.
      induction ch as [|c ch IHc]; intros d1 d2 Hd; [done|]. cbn [fold_left]. apply IHc. by apply IH.
  Qed.
  Lemma node_processed_eq n d1 d2 : dsame d1 d2 -> node_processed n d2 = node_processed n d1.
  Proof. intros Hd. destruct n; cbn; [by apply done_eq|by apply sdone_eq]. Qed.
  Lemma blind_reuse_pass po t : mrel dsame (reuse_pass dbg po t) (reuse_pass dbg po t).
  Proof.
    induction po as [|n po IH]; cbn [reuse_pass]; [apply mrel_ret|].
    apply mrel_bnd; [apply mrel_gets; intros d1 d2 Hd; symmetry; by apply node_processed_eq|]. intros q. destruct q; [apply IH|].
    apply mrel_bnd. { destruct n; cbn [node_process]; [|apply blind_set_sdone]. apply mrel_bnd; [apply blind_on_core, blind_leaf_process|intros _; apply mrel_ret]. }
    intros _. apply mrel_bnd; [apply mrel_gets; intros d1 d2 Hd; symmetry; by apply node_processed_eq|]. intros q.
    apply mrel_bnd; [apply IH|intros r; apply mrel_ret].
  Qed.
  Lemma blind_reuse_all po t : mrel dsame (reuse_all dbg po t) (reuse_all dbg po t).
  Proof.
    unfold reuse_all. apply mrel_bnd.
    - generalize (S (length po)), (@nil (node D)). intros fuel. induction fuel as [|fuel IH]; intros acc; cbn [reuse_loop]; [apply mrel_oof|].
      apply mrel_bnd; [apply blind_reuse_pass|intros r]. destruct r; [apply mrel_ret|apply IH].
    - intros acc. apply mrel_bnd.
      + apply mrel_gets. intros d1 d2 Hd. apply List.filter_ext. intros n. by rewrite (node_processed_eq n _ _ Hd).
      + intros rest. apply mrel_bnd; [apply mrel_debug|intros _; apply mrel_ret].
  Qed.
  Lemma skip_eq l (c1 c2 : core D) : csame c1 c2 -> is_done c2 (l_id l) = is_done c1 (l_id l) /\ Sched.ready c2 l = Sched.ready c1 l.
  Proof. intros (E1 & E2 & E3 & E4). unfold is_done, Sched.ready. by rewrite E1, E3. Qed.
  Lemma blind_fast_pass po t n : mrel csame (fast_pass dbg po t n) (fast_pass dbg po t n).
  Proof.
    revert n. induction po as [|l po IH]; intros n; cbn [fast_pass]; [apply mrel_ret|]. destruct n as [|n]; [apply mrel_ret|].
    apply mrel_bnd; [apply mrel_gets; intros c1 c2 Hc; by destruct (skip_eq l _ _ Hc) as [-> ->]|]. intros q. destruct q; [apply IH|].
    apply mrel_bnd; [apply blind_leaf_process|intros k]. apply mrel_bnd; [apply mrel_gets; intros c1 c2 Hc; by destruct (skip_eq l _ _ Hc) as [-> _]|].
    intros q. destruct q; [|apply mrel_ret]. apply mrel_bnd; [apply IH|intros r; apply mrel_ret].
  Qed.
  Lemma blind_fast_schedule po t : mrel csame (fast_schedule dbg po t) (fast_schedule dbg po t).
  Proof.
    unfold fast_schedule. generalize (S (length po)), (@nil (list (leaf D))), 0. intros fuel. induction fuel as [|fuel IH]; intros acc k; cbn [fast_loop]; [apply mrel_oof|].
    apply mrel_bnd.
    - apply mrel_gets. intros c1 c2 Hc. unfold count_ready. f_equal. apply List.filter_ext. intros l. by destruct (skip_eq l _ _ Hc) as [-> ->].
    - intros n. destruct n as [|n]; [apply mrel_ret|]. apply mrel_bnd; [apply blind_fast_pass|intros r]. destruct (Nat.eqb _ _); [apply IH|apply mrel_ret].
  Qed.
  Lemma blind_forM {A} (l : list A) f : (forall x, mrel csame (f x) (f x)) -> mrel csame (forM l f) (forM l f).
  Proof. intros Hf. induction l as [|x l IH]; cbn [forM]; [apply mrel_ret|]. apply mrel_bnd; [apply Hf|intros _; apply IH]. Qed.
  Lemma blind_fast_eval o t : mrel csame (fast_eval dbg o t) (fast_eval dbg o t).
  Proof. apply blind_forM. intros ls. apply blind_forM. intros l. by apply blind_leaf. Qed.
End blind.
