(** The walk of the bus builders through a bus, and what they build. *)
From stdpp Require Import prelude gmap strings.
From Coq Require Import ZArith Ascii.
From Verif Require Import Num Res Name SpecName P_Name Store Leaf Sched World SpecBus Steps P_Steps P_Ops.

(** ** Texts *)
Lemma dot_illegal : ~ legal "."%char.
Proof. intros Hl. apply keepable_legal in Hl. vm_compute in Hl. discriminate Hl. Qed.
Lemma cut_nodot l : legal_name l -> cut_dot l = (l, None).
Proof.
  induction l as [|c l IH]; [done|]. intros [Hc Hl]%legal_name_cons. cbn.
  destruct (Ascii.eqb_spec c "."%char) as [->|_]; [by destruct dot_illegal|]. by rewrite IH.
Qed.
Lemma cut_dotted l r : legal_name l -> cut_dot (l +:+ "." +:+ r) = (l, Some r).
Proof.
  induction l as [|c l IH]; [done|]. intros [Hc Hl]%legal_name_cons.
  change (String c l +:+ "." +:+ r) with (String c (l +:+ "." +:+ r)). cbn [cut_dot].
  destruct (Ascii.eqb_spec c "."%char) as [->|_]; [by destruct dot_illegal|]. by rewrite IH.
Qed.
Lemma dotted_cons l p : p ≠ [] -> dotted (l :: p) = l +:+ "." +:+ dotted p.
Proof. destruct p; [done|]. intros _. reflexivity. Qed.
Lemma app_assoc_s (a b c : string) : (a +:+ b) +:+ c = a +:+ b +:+ c.
Proof. induction a as [|x a IH]; [done|]. change (String x ((a +:+ b) +:+ c) = String x (a +:+ b +:+ c)). by rewrite IH. Qed.
Lemma app_nil_s (a : string) : a +:+ "" = a.
Proof. induction a as [|x a IH]; [done|]. change (String x (a +:+ "") = String x a). by rewrite IH. Qed.
Lemma lead_snoc q l : lead (q ++ [l]) = lead q +:+ l +:+ ".".
Proof.
  induction q as [|x q IH]; [done|]. unfold lead. cbn [foldr app]. fold (lead (q ++ [l])) (lead q).
  rewrite IH. by rewrite !app_assoc_s.
Qed.
Lemma lead_dotted q l : lead q +:+ l = dotted (q ++ [l]).
Proof.
  induction q as [|x q IH]; [done|]. cbn [app]. rewrite dotted_cons by (by destruct q).
  rewrite <- IH. unfold lead. cbn [foldr]. by rewrite !app_assoc_s.
Qed.
Lemma dotted_inj p : forall p', p ≠ [] -> p' ≠ [] -> Forall legal_name p -> Forall legal_name p' -> dotted p = dotted p' -> p = p'.
Proof.
  induction p as [|l p IH]; intros p' Hp Hp' Lp Lp' E; [done|]. destruct p' as [|l' p']; [done|].
  apply Forall_cons in Lp as [Ll Lp]. apply Forall_cons in Lp' as [Ll' Lp'].
  apply (f_equal cut_dot) in E. destruct p as [|a p], p' as [|a' p'].
  - cbn in E. rewrite !cut_nodot in E by done. congruence.
  - rewrite (dotted_cons l') in E by done. change (dotted [l]) with l in E. rewrite cut_nodot, cut_dotted in E by done. discriminate E.
  - rewrite (dotted_cons l) in E by done. change (dotted [l']) with l' in E. rewrite (cut_nodot l'), cut_dotted in E by done. discriminate E.
  - rewrite (dotted_cons l), (dotted_cons l'), !cut_dotted in E by done. injection E as -> E. f_equal. by apply IH.
Qed.
Lemma dotted_length p : length p <= S (String.length (dotted p)).
Proof.
  induction p as [|l p IH]; [cbn; lia|]. destruct p as [|a p]; [cbn; lia|].
  rewrite dotted_cons by done. cbn [length] in *.
  assert (forall a b : string, String.length (a +:+ b) = String.length a + String.length b) as Hl.
  { intros x y. induction x as [|c x IHx]; [done|]. change (S (String.length (x +:+ y)) = S (String.length x + String.length y)). by rewrite IHx. }
  rewrite Hl, Hl. change (String.length ".") with 1. lia.
Qed.
Lemma str_in_spec l x : str_in l x = true <-> x ∈ l.
Proof.
  unfold str_in. rewrite existsb_exists. split.
  - intros (y & Hy & E). apply String.eqb_eq in E as ->. by apply elem_of_list_In.
  - intros Hx. exists x. split; [by apply elem_of_list_In|]. apply String.eqb_refl.
Qed.

(** ** Looking up a path *)
Lemma find_label_first m l s : find_label m l = Some s <-> first m l s.
Proof.
  induction m as [|[l' s'] m IH]; cbn.
  - split; [done|]. by intros (i & Hi & _).
  - destruct (String.eqb_spec l' l) as [->|Hne].
    + split.
      * intros [= ->]. exists 0. split; [done|]. intros j e Hj. lia.
      * intros (i & Hi & Hj). destruct i as [|i]; [cbn in Hi; by simplify_eq|].
        by destruct (Hj 0 (l, s') ltac:(lia) eq_refl).
    + rewrite IH. split.
      * intros (i & Hi & Hj). exists (S i). split; [done|]. intros [|j] e Hl; cbn; [by intros [= <-]|]. apply Hj. lia.
      * intros ([|i] & Hi & Hj); [cbn in Hi; by simplify_eq|]. exists i. split; [done|].
        intros j e Hl He. apply (Hj (S j)); [lia|done].
Qed.
Lemma first_in m l s : first m l s -> (l, s) ∈ m.
Proof. intros (i & Hi & _). by eapply elem_of_list_lookup_2. Qed.
Lemma first_distinct m l s : NoDup m.*1 -> (l, s) ∈ m -> first m l s.
Proof.
  intros Hn [i Hi]%elem_of_list_lookup. exists i. split; [done|]. intros j [l' s'] Hj He E. cbn in E. subst.
  assert (j = i); [|lia]. eapply (NoDup_lookup m.*1); [done| |]; rewrite list_lookup_fmap; [by rewrite He|by rewrite Hi].
Qed.

Section lookup.
  Context {D : Type} `{NumOps D}.
  Implicit Types w : world D.
  Definition is_bus_kind o : is_bus (so_kind o) = true <-> so_kind o = KBus.
  Proof. by destruct (so_kind o). Qed.

  Lemma at_fuel_resolves n m p s w :
    p ≠ [] -> Forall legal_name p -> length p <= n -> resolves (w_sigs w) m p s -> at_fuel n m (dotted p) w = Ok s w.
  Proof.
    intros Hp HL Hn Hr. revert n Hn. clear Hp. induction Hr as [m l s Hf|m l b o p s Hf Ho Hk Hr IH]; intros n Hn;
      apply Forall_cons in HL as [Ll Lp]; (destruct n as [|n]; [cbn in Hn; lia|]); cbn [at_fuel].
    - change (dotted [l]) with l. rewrite cut_nodot by done. cbn [fst snd]. by apply find_label_first in Hf as ->.
    - assert (p ≠ []) as Hp by (by destruct Hr). rewrite dotted_cons, cut_dotted by done. cbn [fst snd].
      apply find_label_first in Hf as ->. unfold bnd, get_sig. rewrite Ho. cbn iota beta.
      apply is_bus_kind in Hk as ->. cbn [verify ret]. apply IH; [done|]. cbn in Hn. lia.
  Qed.
  Lemma at_label_resolves m p s w :
    p ≠ [] -> Forall legal_name p -> resolves (w_sigs w) m p s -> at_label m (dotted p) w = Ok s w.
  Proof. intros Hp HL Hr. apply at_fuel_resolves; try done. apply dotted_length. Qed.
  Lemma at_fuel_Ok n m p s w w' : p ≠ [] -> Forall legal_name p ->
    at_fuel n m (dotted p) w = Ok s w' -> w' = w /\ resolves (w_sigs w) m p s.
  Proof.
    revert n m. induction p as [|l p IH]; intros n m Hp HL; [done|]. apply Forall_cons in HL as [Ll Lp].
    destruct n as [|n]; [done|]. cbn [at_fuel]. destruct p as [|l2 p].
    - change (dotted [l]) with l. rewrite cut_nodot by done. cbn [fst snd].
      destruct (find_label m l) as [s'|] eqn:E; [|done]. intros [= -> ->]. split; [done|]. constructor. by apply find_label_first.
    - rewrite dotted_cons, cut_dotted by done. cbn [fst snd].
      destruct (find_label m l) as [s'|] eqn:E; [|done]. unfold bnd, get_sig. destruct (w_sigs w !! s') as [o|] eqn:Ho; [|done].
      destruct (is_bus (so_kind o)) eqn:Ek; [|done]. cbn [verify ret]. intros Ha.
      destruct (IH n (so_mem o)) as [-> Hr]; [done|done|done|]. split; [done|].
      econstructor; [by apply find_label_first|done|by apply is_bus_kind|done].
  Qed.
  Lemma resolves_inj S m p s s' : resolves S m p s -> resolves S m p s' -> s = s'.
  Proof.
    intros Hr. revert s'. induction Hr as [m l s Hf|m l b o p s Hf Ho Hk Hr IH]; intros s' Hr'.
    - inversion Hr' as [? ? ? Hf'|? ? ? ? ? ? ? ? ? Hr2]; subst; [|by inversion Hr2].
      apply find_label_first in Hf, Hf'. congruence.
    - inversion Hr' as [? ? ? Hf'|? ? ? o' ? ? Hf' Ho' Hk' Hr2]; subst; [by inversion Hr|].
      apply find_label_first in Hf, Hf'. simplify_eq. by apply IH.
  Qed.
  Lemma resolves_member S m p s : resolves S m p s -> member S m p s.
  Proof.
    induction 1 as [m l s Hf|m l b o p s Hf Ho Hk Hr IH]; [constructor; by apply first_in|].
    econstructor; [by apply first_in|done..].
  Qed.
  Lemma member_resolves S m p s : distinct S m -> member S m p s -> resolves S m p s.
  Proof.
    intros Hd Hm. induction Hm as [m l s Hi|m l b o p s Hi Ho Hk Hr IH]; destruct Hd as [m Hn Hd].
    - constructor. by apply first_distinct.
    - econstructor; [by apply first_distinct|done|done|]. apply IH. by eapply Hd.
  Qed.

  #[global] Instance like_preorder : PreOrder like.
  Proof.
    split.
    - intros S s o Ho. by exists o.
    - intros S1 S2 S3 H1 H2 s o Ho. destruct (H1 _ _ Ho) as (o2 & Ho2 & A & B & C & E).
      destruct (H2 _ _ Ho2) as (o3 & Ho3 & A' & B' & C' & E'). exists o3. split_and!; try congruence.
      intros Hn. rewrite E'; [by apply E|]. by rewrite E.
  Qed.
  (** Members of a bus exist before it. *)
  Definition older (S : list sigobj) : Prop :=
    forall b o e, S !! b = Some o -> e ∈ so_mem o -> snd e < b.
  Definition labels_ok (S : list sigobj) : Prop :=
    forall b o e, S !! b = Some o -> e ∈ so_mem o -> legal_name (fst e).

  Lemma resolves_like S S' m p s : like S S' -> resolves S m p s -> resolves S' m p s.
  Proof.
    intros HL. induction 1 as [m l s Hf|m l b o p s Hf Ho Hk Hr IH]; [by constructor|].
    destruct (HL _ _ Ho) as (o' & Ho' & Hk' & Hm' & _). econstructor; [done|done|congruence|by rewrite Hm'].
  Qed.
  Lemma resolves_like_back S S' m p s : like S S' -> older S -> (forall e, e ∈ m -> snd e < length S) ->
    resolves S' m p s -> resolves S m p s /\ s < length S.
  Proof.
    intros HL Hold Hm Hr. induction Hr as [m l s Hf|m l b o p s Hf Ho Hk Hr IH].
    - split; [by constructor|]. by apply (Hm (l, s)), first_in.
    - pose proof (Hm _ (first_in _ _ _ Hf)) as Hb. cbn in Hb. apply lookup_lt_is_Some in Hb as [ob Hob].
      destruct (HL _ _ Hob) as (o' & Ho' & Hk' & Hm' & _). rewrite Ho in Ho'. injection Ho' as <-.
      destruct IH as [IH1 IH2].
      + intros e He. rewrite Hm' in He. pose proof (Hold _ _ _ Hob He). apply lookup_lt_Some in Hob. lia.
      + split; [|done]. econstructor; [done|done|congruence|by rewrite <- Hm'].
  Qed.

  (** ** The paths the walk visits *)
  Fixpoint wanted (n : nat) (S : list sigobj) (excl : list string) (q : list string) (m : bus) : list (list string * nat) :=
    match n with
    | O => []
    | Datatypes.S n' =>
        if str_in excl (lead q) then [] else
        flat_map (fun e : string * nat =>
          match S !! snd e with
          | Some o => if is_bus (so_kind o) then wanted n' S excl (q ++ [fst e]) (so_mem o)
                      else if str_in excl (dotted (q ++ [fst e])) then [] else [(q ++ [fst e], snd e)]
          | None => []
          end) m
    end.
  (** [excluded], but only counting buses from [q] on. *)
  Definition excluded_from (excl q p : list string) : Prop :=
    dotted (q ++ p) ∈ excl \/ exists a r, p = a ++ r /\ r ≠ [] /\ lead (q ++ a) ∈ excl.
  Lemma wanted_spec n S excl q m p s : older S -> (forall e, e ∈ m -> snd e < n) ->
    (p, s) ∈ wanted (Datatypes.S n) S excl q m <->
    exists r, p = q ++ r /\ member S m r s /\ value_signal S s /\ ~ excluded_from excl q r.
  Proof.
    intros Hold. revert q m. induction n as [n IHn] using lt_wf_ind. intros q m Hm. cbn [wanted].
    destruct (str_in excl (lead q)) eqn:Ex.
    { apply str_in_spec in Ex. split; [by intros ?%elem_of_nil|]. intros (r & _ & Hr & _ & Hn). destruct Hn. right.
      exists [], r. rewrite app_nil_r. split_and!; [done|by destruct Hr|done]. }
    assert (lead q ∉ excl) as Hq by (rewrite <- str_in_spec, Ex; done).
    assert (forall l b o, (l, b) ∈ m -> S !! b = Some o -> so_kind o = KBus ->
      (p, s) ∈ wanted n S excl (q ++ [l]) (so_mem o) <->
      exists r, p = (q ++ [l]) ++ r /\ member S (so_mem o) r s /\ value_signal S s /\ ~ excluded_from excl (q ++ [l]) r) as IH.
    { intros l b o Hl Hb Hk. pose proof (Hm _ Hl) as Hlt. cbn in Hlt. destruct n as [|n']; [lia|].
      apply IHn; [lia|]. intros e He. pose proof (Hold _ _ _ Hb He). lia. }
    clear IHn. rewrite elem_of_list_In, in_flat_map. split.
    - intros ([l b] & Hl & Hp). apply elem_of_list_In in Hl. apply elem_of_list_In in Hp. cbn [fst snd] in Hp.
      destruct (S !! b) as [o|] eqn:Hb; [|by apply elem_of_nil in Hp]. destruct (is_bus (so_kind o)) eqn:Ek.
      + apply is_bus_kind in Ek. apply (IH _ _ _ Hl Hb Ek) in Hp as (r & -> & Hr & Hv & Hx).
        exists (l :: r). split_and!; [by rewrite <- app_assoc|by econstructor|done|].
        intros [He|(a & r' & Ea & Hr' & He)].
        * apply Hx. left. by rewrite <- app_assoc.
        * destruct a as [|l' a]; [by rewrite app_nil_r in He|]. cbn in Ea. injection Ea as <- ->.
          apply Hx. right. exists a, r'. split_and!; [done|done|]. by rewrite <- app_assoc.
      + destruct (str_in excl (dotted (q ++ [l]))) eqn:El; [by apply elem_of_nil in Hp|].
        apply elem_of_list_singleton in Hp as [= -> ->]. exists [l]. split_and!; [done|by constructor| |].
        * exists o. split; [done|]. by destruct (so_kind o).
        * intros [He|(a & r' & Ea & Hr' & He)]; [by apply str_in_spec in He; congruence|].
          destruct a as [|l' a]; [by rewrite app_nil_r in He|]. cbn in Ea. injection Ea as <- Ea.
          destruct a; [cbn in Ea; by subst|done].
    - intros (r & -> & Hr & (ov & Hov & Hvk) & Hx).
      inversion Hr as [? l ? Hl|? l b o r' ? Hl Hb Hk Hr']; subst.
      + exists (l, s). split; [by apply elem_of_list_In|]. cbn [fst snd]. rewrite Hov.
        destruct (is_bus (so_kind ov)) eqn:Ek; [by apply is_bus_kind in Ek|].
        destruct (str_in excl (dotted (q ++ [l]))) eqn:El; [|by left].
        destruct Hx. left. by apply str_in_spec.
      + exists (l, b). split; [by apply elem_of_list_In|]. cbn [fst snd]. rewrite Hb.
        rewrite (proj2 (is_bus_kind o) Hk). apply elem_of_list_In, (IH _ _ _ Hl Hb Hk). exists r'.
        split_and!; [by rewrite <- app_assoc|done|by exists ov|].
        intros [He|(a & r2 & Ea & Hr2 & He)]; apply Hx.
        * left. by rewrite <- app_assoc in He.
        * right. exists (l :: a), r2. rewrite <- app_assoc in He. split_and!; [by rewrite Ea|done|done].
  Qed.
  Lemma wanted_top n S excl m p s : older S -> (forall e, e ∈ m -> snd e < n) ->
    (p, s) ∈ wanted (Datatypes.S n) S excl [] m <-> member S m p s /\ value_signal S s /\ ~ excluded excl p.
  Proof.
    intros Ho Hm. rewrite wanted_spec by done. split.
    - intros (r & -> & ?). done.
    - intros ?. by exists p.
  Qed.
  Lemma wanted_prefix n S excl q m p s : (p, s) ∈ wanted n S excl q m -> exists r, p = q ++ r /\ r ≠ [].
  Proof.
    revert q m. induction n as [|n IH]; intros q m; cbn [wanted]; [by intros ?%elem_of_nil|].
    destruct (str_in excl (lead q)); [by intros ?%elem_of_nil|]. rewrite elem_of_list_In, in_flat_map.
    intros ([l b] & _ & Hp). apply elem_of_list_In in Hp. cbn [fst snd] in Hp.
    destruct (S !! b) as [o|]; [|by apply elem_of_nil in Hp]. destruct (is_bus (so_kind o)).
    - apply IH in Hp as (r & -> & _). exists (l :: r). split; [by rewrite <- app_assoc|done].
    - destruct (str_in _ _); [by apply elem_of_nil in Hp|]. apply elem_of_list_singleton in Hp as [= -> ->]. by exists [l].
  Qed.
  Lemma wanted_nodup n S excl q m : distinct S m -> NoDup (wanted n S excl q m).*1.
  Proof.
    revert q m. induction n as [|n IH]; intros q m Hd; cbn [wanted]; [constructor|].
    destruct (str_in excl (lead q)); [constructor|]. destruct Hd as [m Hn Hd].
    induction m as [|[l b] m IHm]; [constructor|]. cbn [flat_map]. rewrite fmap_app. apply NoDup_app.
    cbn [fmap list_fmap fst] in Hn. apply NoDup_cons in Hn as [Hl Hn]. cbn [fst snd]. split_and!.
    - destruct (S !! b) as [o|] eqn:Hb; [|constructor]. destruct (is_bus (so_kind o)) eqn:Ek.
      + apply IH. eapply Hd; [left|done|by apply is_bus_kind].
      + destruct (str_in _ _); [constructor|]. apply NoDup_singleton.
    - intros p Hp Hp'. apply elem_of_list_fmap in Hp as ([p1 s1] & -> & Hp). apply elem_of_list_fmap in Hp' as ([p2 s2] & E & Hp').
      cbn in E. subst p2. apply elem_of_list_In, in_flat_map in Hp' as ([l' b'] & Hl' & Hp').
      apply elem_of_list_In in Hl', Hp'. cbn [fst snd] in Hp'.
      assert (forall l b s, (p1, s) ∈ match S !! b with
          | Some o => if is_bus (so_kind o) then wanted n S excl (q ++ [l]) (so_mem o)
                      else if str_in excl (dotted (q ++ [l])) then [] else [(q ++ [l], b)]
          | None => [] end -> exists r, p1 = q ++ l :: r) as Hpre'.
      { intros l0 b0 s0 H0. destruct (S !! b0) as [o|]; [|by apply elem_of_nil in H0]. destruct (is_bus (so_kind o)).
        - apply wanted_prefix in H0 as (r & -> & _). exists r. by rewrite <- app_assoc.
        - destruct (str_in excl (dotted (q ++ [l0]))); [by apply elem_of_nil in H0|]. apply elem_of_list_singleton in H0 as [= -> ->]. by exists []. }
      apply Hpre' in Hp as (r & ->). apply Hpre' in Hp' as (r' & E). apply app_inv_head in E. injection E as <- _.
      apply Hl. apply elem_of_list_fmap. by exists (l, b').
    - apply IHm; [done|]. intros l' b' o Hl' Hb' Hk'. eapply Hd; [right; exact Hl'|done|done].
  Qed.

  (** ** The walk is a loop over these paths *)
  Lemma forM_app {S A} (l1 l2 : list A) (f : A -> M S unit) s : forM (l1 ++ l2) f s = (forM l1 f ;;; forM l2 f) s.
  Proof.
    revert s. induction l1 as [|x l1 IH]; intros s; [done|]. cbn. unfold bnd at 1 3.
    unfold bnd at 1. destruct (f x s) as [[] s1| | |]; try done. by rewrite IH.
  Qed.
  Definition build_at dbg (b : nat) (im om : bus) (e : list string * nat) : M (world D) unit :=
    si <~ at_label im (dotted (fst e)) ;; so <~ at_label om (dotted (fst e)) ;; build_one dbg b (dotted (fst e)) si so.
  Section walk.
    Context (S : list sigobj) (Inv : world D -> Prop).
    Context (HInv : forall w, Inv w -> like S (w_sigs w)).
    Lemma forM_ok_inv {A} (l : list A) (f : A -> M (world D) unit) w w' :
      (forall e w w', e ∈ l -> Inv w -> f e w = Ok tt w' -> Inv w') ->
      Inv w -> forM l f w = Ok tt w' -> Inv w'.
    Proof.
      revert w. induction l as [|x l IH]; intros w Hf Hw; cbn; [by intros [= <-]|]. unfold bnd.
      destruct (f x w) as [[] w1| | |] eqn:E; try done. apply IH; [intros e ? ? He; apply Hf; by right|]. eapply Hf; [left|done|done].
    Qed.
    Lemma forM_flat {A B} (m : list A) (g : A -> list B) (f : A -> M (world D) unit) (h : B -> M (world D) unit) w :
      (forall a e w w', a ∈ m -> e ∈ g a -> Inv w -> h e w = Ok tt w' -> Inv w') ->
      (forall e w, e ∈ m -> Inv w -> f e w = forM (g e) h w) ->
      Inv w -> forM m f w = forM (flat_map g m) h w.
    Proof.
      revert w. induction m as [|e m IH]; intros w Hk Hf HL; [done|]. cbn [forM flat_map]. rewrite forM_app.
      unfold bnd. rewrite Hf; [|left|done]. destruct (forM (g e) h w) as [[] w1| | |] eqn:E; try done.
      apply IH.
      - intros a e' ? ? Ha. apply Hk. by right.
      - intros e' w' He'. apply Hf. by right.
      - eapply forM_ok_inv; [|exact HL|exact E]. intros e' ? ? He'. eapply Hk; [left|done].
    Qed.
    Definition legal_path (p : list string) : Prop := p ≠ [] /\ Forall legal_name p.
    Lemma wanted_legal n excl q m p s : labels_ok S -> (forall e, e ∈ m -> legal_name (fst e)) -> Forall legal_name q ->
      (p, s) ∈ wanted n S excl q m -> legal_path p.
    Proof.
      intros HS. revert q m. induction n as [|n IH]; intros q m Hm Hq; cbn [wanted]; [by intros ?%elem_of_nil|].
      destruct (str_in excl (lead q)); [by intros ?%elem_of_nil|]. rewrite elem_of_list_In, in_flat_map.
      intros ([l b] & Hl & Hp). apply elem_of_list_In in Hp, Hl. cbn [fst snd] in Hp. pose proof (Hm _ Hl) as Hll. cbn in Hll.
      assert (Forall legal_name (q ++ [l])) as Hql by (apply Forall_app; split; [done|apply Forall_cons; split; [done|constructor]]).
      destruct (S !! b) as [o|] eqn:Hb; [|by apply elem_of_nil in Hp]. destruct (is_bus (so_kind o)).
      - eapply IH; [|exact Hql|exact Hp]. intros e He. by eapply HS.
      - destruct (str_in _ _); [by apply elem_of_nil in Hp|]. apply elem_of_list_singleton in Hp as [= -> ->].
        split; [by destruct q|done].
    Qed.
    Lemma visit_eq dbg b excl im om n q m w :
      older S -> labels_ok S ->
      (forall p s w w', legal_path p -> Inv w -> build_at dbg b im om (p, s) w = Ok tt w' -> Inv w') ->
      Inv w -> n <= length S -> (forall e, e ∈ m -> snd e < n /\ legal_name (fst e)) -> Forall legal_name q ->
      visit_bus dbg (Datatypes.S n) b excl im om (lead q) m w =
      forM (wanted (Datatypes.S n) S excl q m) (build_at dbg b im om) w.
    Proof.
      intros Hold Hlab Hkeep. revert q m w. induction n as [n IHn] using lt_wf_ind. intros q m w HL Hn Hm Hq.
      cbn [visit_bus wanted]. destruct (str_in excl (lead q)) eqn:Ex; [done|].
      apply forM_flat; [| |done].
      { intros a [p s] w1 w2 Ha He. apply Hkeep.
        apply (wanted_legal (Datatypes.S n) excl q m p s); [done|intros e He'; by apply Hm|done|].
        cbn [wanted]. rewrite Ex. apply elem_of_list_In, in_flat_map. exists a. split; by apply elem_of_list_In. }
      intros [l s] w1 Hl HI. pose proof (HInv _ HI) as HL1. destruct (Hm _ Hl) as [Hlt Hll]. cbn in Hlt, Hll.
      assert (s < length S) as Hs by lia.
      apply lookup_lt_is_Some in Hs as [o Ho]. destruct (HL1 _ _ Ho) as (o' & Ho' & Hk' & Hm' & _).
      cbn [fst snd]. rewrite Ho. unfold bnd at 1, get_sig. rewrite Ho'. rewrite Hk', Hm'.
      destruct (is_bus (so_kind o)) eqn:Ek.
      - rewrite <- lead_snoc. destruct n as [|n']; [lia|].
        apply IHn; [lia|done|lia| |apply Forall_app; split; [done|apply Forall_cons; split; [done|constructor]]].
        intros e He. split; [|by eapply Hlab]. pose proof (Hold _ _ _ Ho He). lia.
      - rewrite lead_dotted. destruct (str_in excl (dotted (q ++ [l]))); [done|]. cbn [forM]. unfold bnd at 3.
        change (build_at dbg b im om (q ++ [l], s) w1 = match build_at dbg b im om (q ++ [l], s) w1 with
          Ok a s' => ret tt s' | Exn e s' => Exn e s' | UB u => UB u | OOF => OOF end).
        by destruct (build_at dbg b im om (q ++ [l], s) w1) as [[] ?| | |].
    Qed.
  End walk.
End lookup.
