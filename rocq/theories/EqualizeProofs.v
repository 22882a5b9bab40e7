(** Proofs about the equalization model: the region walk returns a closed region, and scaling a
    closed region changes no value outside it. *)
From Verif Require Import BatchNorm BatchNormProps Equalize.
From Coq Require Import Reals List Bool Arith Lra Lia FunctionalExtensionality.
Import ListNotations.
Open Scope R_scope.

(** ** Specification-level notions *)

(** Execution order with unique names; [D] are the placeholders. *)
Fixpoint wf (D : list nat) (g : graph) : Prop :=
  match g with
  | [] => True
  | (i, k) :: g' => ~ In i D /\ incl (inputs k) D /\ wf (i :: D) g'
  end.

(** Every module is called from one place. *)
Definition unshared (g : graph) : Prop :=
  forall i j m a b, In (i, KLayer m a) g -> In (j, KLayer m b) g -> i = j.
Definition no_mul (g : graph) : Prop := forall i a b, ~ In (i, KMul a b) g.
Definition no_add_const (g : graph) : Prop := forall i ins c, In (i, KAdd ins c) g -> c = 0.
(** Positive homogeneity of a per-channel operator. *)
Definition hom (f : (nat -> R) -> nat -> R) : Prop :=
  forall r x p, 0 < r -> f (fun q => x q * r) p = f x p * r.
Definition inv_hom (g : graph) : Prop := forall i f a, In (i, KInv f a) g -> hom f.

Definition edge (g : graph) (a b : nat) : Prop := exists k, In (b, k) g /\ In a (inputs k).

(** ** Lookup *)
Lemma wf_not_in D g : wf D g -> forall i k, In (i, k) g -> ~ In i D.
Proof.
  revert D. induction g as [|[j kj] g IH]; intros D; cbn [wf]; [intros _ i k []|].
  intros (H1 & H2 & H3) i k [E|Hi]; [injection E as -> ->; exact H1|].
  intros C. apply (IH _ H3 i k Hi). right. exact C.
Qed.

Lemma kind_of_spec D g : wf D g -> forall i k, In (i, k) g <-> kind_of g i = Some k.
Proof.
  intros W i k. split.
  - revert D W. induction g as [|[j kj] g IH]; intros D W; cbn [wf] in W; [intros []|].
    destruct W as (H1 & H2 & H3). unfold kind_of. cbn [find fst snd]. intros [E|Hi].
    + injection E as -> ->. rewrite Nat.eqb_refl. reflexivity.
    + destruct (Nat.eqb_spec j i) as [->|N]; [exfalso; apply (wf_not_in _ _ H3 i k Hi); left; reflexivity|].
      apply (IH _ H3 Hi).
  - unfold kind_of. destruct (find _ g) as [[j kj]|] eqn:F; [|discriminate]. intros [= <-].
    apply find_some in F. cbn [fst snd] in *. destruct F as [F1 F2]. apply Nat.eqb_eq in F2. subst. exact F1.
Qed.

Lemma users_edge g a b : In b (users g a) <-> edge g a b.
Proof.
  unfold users, edge. rewrite in_map_iff. split.
  - intros ([j k] & <- & H). apply filter_In in H. destruct H as [H1 H2]. cbn [fst snd] in *.
    apply existsb_exists in H2. destruct H2 as (x & Hx & E). apply Nat.eqb_eq in E. subst x. exists k. split; assumption.
  - intros (k & H1 & H2). exists (b, k). split; [reflexivity|]. apply filter_In. split; [exact H1|].
    apply existsb_exists. exists a. split; [exact H2|apply Nat.eqb_refl].
Qed.

Lemma ins_edge D g a b : wf D g -> In a (ins_of g b) <-> edge g a b.
Proof.
  intros W. unfold ins_of, edge. split.
  - destruct (kind_of g b) as [k|] eqn:E; [|intros []]. intros H. exists k. split; [|exact H].
    apply (kind_of_spec D g W). exact E.
  - intros (k & H1 & H2). apply (kind_of_spec D g W) in H1. rewrite H1. exact H2.
Qed.

Lemma seen_in st a b : seen st (a, b) = true <-> In (a, b) (hist st).
Proof.
  unfold seen. rewrite existsb_exists. split.
  - intros ([x y] & H & E). cbn [fst snd] in E. apply andb_prop in E. destruct E as [E1 E2].
    apply Nat.eqb_eq in E1, E2. subst. exact H.
  - intros H. exists (a, b). split; [exact H|]. cbn [fst snd]. rewrite !Nat.eqb_refl. reflexivity.
Qed.

(** ** The walk *)
Definition le (s t : wstate) : Prop :=
  incl (srcs s) (srcs t) /\ incl (sinks s) (sinks t) /\ incl (hist s) (hist t) /\ (bad s = true -> bad t = true).
Lemma le_refl s : le s s. Proof. repeat split; auto using incl_refl. Qed.
Lemma le_trans s t u : le s t -> le t u -> le s u.
Proof. intros (a & b & c & d) (a' & b' & c' & d'). repeat split; eauto using incl_tran. Qed.
Lemma le_bad s t : le s t -> bad t = false -> bad s = false.
Proof. intros (_ & _ & _ & H) E. destruct (bad s); [rewrite H in E by reflexivity; discriminate|reflexivity]. Qed.
Lemma le_visit s e : le s (visit s e).
Proof. repeat split; cbn; auto using incl_refl. intros x Hx. right. exact Hx. Qed.
Lemma le_add_src s m : le s (add_src m s).
Proof. repeat split; cbn; auto using incl_refl. intros x Hx. right. exact Hx. Qed.
Lemma le_add_sink s m : le s (add_sink m s).
Proof. repeat split; cbn; auto using incl_refl. intros x Hx. right. exact Hx. Qed.
Lemma le_set_bad s : le s (set_bad s).
Proof. repeat split; cbn; auto using incl_refl. Qed.

Lemma fold_le {A} (f : wstate -> A -> wstate) l : (forall s a, le s (f s a)) -> forall s, le s (fold_left f l s).
Proof.
  intros H. induction l as [|a l IH]; intros s; cbn [fold_left]; [apply le_refl|].
  eapply le_trans; [apply H|]. apply IH.
Qed.

Section Closure.
Variables (D : list nat) (g : graph) (M : modules).
Hypothesis W : wf D g.
Hypothesis NM : no_mul g.

Lemma walk_le fuel : forall down n st, le st (walk g M fuel down n st).
Proof.
  induction fuel as [|f IH]; intros down n st; cbn [walk]; [apply le_set_bad|].
  destruct down; apply fold_le; intros s u; (destruct (seen s _); [apply le_refl|]); cbv zeta;
    (eapply le_trans; [apply le_visit|]).
  - destruct (kind_of g u) as [[m i|h i|a b|ins c|h ins]|]; try apply le_set_bad; try apply IH.
    + destruct (is_norm (M m)); [apply le_set_bad|apply le_add_sink].
    + eapply le_trans; apply IH.
  - destruct (kind_of g u) as [[m i|h i|a b|ins c|h ins]|]; try apply le_set_bad.
    + eapply le_trans; [apply le_add_src|apply IH].
    + eapply le_trans; apply IH.
    + eapply le_trans; apply IH.
    + eapply le_trans; apply IH.
Qed.

Definition all_out (H : list (nat * nat)) (a : nat) : Prop := forall b, edge g a b -> In (a, b) H.
Definition all_in (H : list (nat * nat)) (b : nat) : Prop := forall a, edge g a b -> In (a, b) H.

Definition okA (st : wstate) (a : nat) : Prop :=
  match kind_of g a with
  | Some (KLayer m _) => In m (srcs st) /\ all_out (hist st) a
  | Some (KInv _ _) | Some (KAdd _ _) => all_in (hist st) a /\ all_out (hist st) a
  | _ => False
  end.
Definition okB (st : wstate) (b : nat) : Prop :=
  match kind_of g b with
  | Some (KLayer m _) => In m (sinks st) /\ is_norm (M m) = false
  | Some (KInv _ _) | Some (KAdd _ _) => all_in (hist st) b /\ all_out (hist st) b
  | _ => False
  end.
Definition Good (st : wstate) (PA PB : list nat) : Prop :=
  (forall a b, In (a, b) (hist st) -> edge g a b /\ (In a PA \/ okA st a) /\ (In b PB \/ okB st b))
  /\ (forall m, In m (srcs st) -> exists a i, kind_of g a = Some (KLayer m i) /\ (In a PA \/ all_out (hist st) a))
  /\ (forall m, In m (sinks st) -> exists a b i, In (a, b) (hist st) /\ kind_of g b = Some (KLayer m i)).

Lemma okA_mono s t a : le s t -> okA s a -> okA t a.
Proof.
  intros (L1 & L2 & L3 & _). unfold okA, all_in, all_out. destruct (kind_of g a) as [[]|]; intuition.
Qed.
Lemma okB_mono s t b : le s t -> okB s b -> okB t b.
Proof.
  intros (L1 & L2 & L3 & _). unfold okB, all_in, all_out. destruct (kind_of g b) as [[]|]; intuition.
Qed.

(** Recording a new edge between pending nodes. *)
Lemma Good_visit st a b PA PB : Good st PA PB -> edge g a b -> In a PA -> (In b PB \/ okB (visit st (a, b)) b) ->
  Good (visit st (a, b)) PA PB.
Proof.
  intros (G1 & G2 & G3) E Ha Hb. pose proof (le_visit st (a, b)) as L. split; [|split].
  - intros x y [Hxy|Hxy].
    + injection Hxy as <- <-. repeat split; auto.
    + destruct (G1 x y Hxy) as (K1 & K2 & K3). repeat split; [exact K1| |]; [destruct K2|destruct K3]; eauto using okA_mono, okB_mono.
  - intros m Hm. destruct (G2 m Hm) as (x & i & K1 & K2). exists x, i. split; [exact K1|]. destruct K2 as [K2|K2]; [left; exact K2|right].
    intros y Hy. right. apply K2. exact Hy.
  - intros m Hm. destruct (G3 m Hm) as (x & y & i & K1 & K2). exists x, y, i. split; [right; exact K1|exact K2].
Qed.

Lemma Good_weaken st PA PB PA' PB' : Good st PA PB -> incl PA PA' -> incl PB PB' -> Good st PA' PB'.
Proof.
  intros (G1 & G2 & G3) I1 I2. split; [|split; [|exact G3]].
  - intros a b H. destruct (G1 a b H) as (K1 & K2 & K3). repeat split; [exact K1| |]; [destruct K2; auto|destruct K3; auto].
  - intros m Hm. destruct (G2 m Hm) as (a & i & K1 & K2). exists a, i. split; [exact K1|]. destruct K2; auto.
Qed.

Lemma Good_popA st a PA PB : Good st (a :: PA) PB -> okA st a -> Good st PA PB.
Proof.
  intros (G1 & G2 & G3) O. split; [|split; [|exact G3]].
  - intros x y H. destruct (G1 x y H) as (K1 & [[<-|K2]|K2] & K3); repeat split; auto.
  - intros m Hm. destruct (G2 m Hm) as (x & i & K1 & K2). exists x, i. split; [exact K1|].
    destruct K2 as [[<-|K2]|K2]; auto. right. unfold okA in O. rewrite K1 in O. apply O.
Qed.
Lemma Good_popB st b PA PB : Good st PA (b :: PB) -> okB st b -> Good st PA PB.
Proof.
  intros (G1 & G2 & G3) O. split; [|split; [exact G2|exact G3]].
  intros x y H. destruct (G1 x y H) as (K1 & K2 & [[<-|K3]|K3]); repeat split; auto.
Qed.

Definition is_layer (n : nat) : Prop := exists m i, kind_of g n = Some (KLayer m i).
Definition is_inner (n : nat) : Prop :=
  (exists f i, kind_of g n = Some (KInv f i)) \/ (exists ins c, kind_of g n = Some (KAdd ins c)).

Lemma inner_ok st n : is_inner n -> all_in (hist st) n -> all_out (hist st) n -> okA st n /\ okB st n.
Proof.
  unfold okA, okB. intros [(f & i & ->)|(ins & c & ->)]; auto.
Qed.

Lemma all_out_mono s t n : le s t -> all_out (hist s) n -> all_out (hist t) n.
Proof. intros (_ & _ & L & _) H b E. apply L, H, E. Qed.
Lemma all_in_mono s t n : le s t -> all_in (hist s) n -> all_in (hist t) n.
Proof. intros (_ & _ & L & _) H b E. apply L, H, E. Qed.

(** The call specification. *)
Lemma walk_spec fuel : forall down n st PA PB,
  bad (walk g M fuel down n st) = false -> Good st PA PB ->
  (if down then In n PA else In n PB) ->
  Good (walk g M fuel down n st) PA PB
  /\ (if down then all_out (hist (walk g M fuel down n st)) n else all_in (hist (walk g M fuel down n st)) n).
Proof.
  induction fuel as [|f IH]; intros down n st PA PB Hb HG Hn; cbn [walk] in *; [cbn in Hb; discriminate|].
  destruct down.
  - (* find_sinks *)
    match type of Hb with bad (fold_left ?F _ _) = _ => set (F0 := F) in * end.
    assert (LE : forall s u, le s (F0 s u)).
    { intros s u. unfold F0. destruct (seen s (n, u)); [apply le_refl|]. cbv zeta. eapply le_trans; [apply le_visit|].
      destruct (kind_of g u) as [[m i|h i|a b|ins c|h ins]|]; try apply le_set_bad; try apply walk_le.
      - destruct (is_norm (M m)); [apply le_set_bad|apply le_add_sink].
      - eapply le_trans; apply walk_le. }
    assert (STEP : forall s u, edge g n u -> bad (F0 s u) = false -> Good s PA PB -> Good (F0 s u) PA PB /\ In (n, u) (hist (F0 s u))).
    { intros s u E B G. revert B. unfold F0. destruct (seen s (n, u)) eqn:SE.
      { intros _. split; [exact G|]. apply seen_in. exact SE. }
      cbv zeta. destruct (kind_of g u) as [[m i|h i|a b|ins c|h ins]|] eqn:K; try (cbn; discriminate).
      - destruct (is_norm (M m)) eqn:Nm; [cbn; discriminate|]. intros _. split; [|left; reflexivity].
        assert (G' : Good (visit s (n, u)) PA (u :: PB)).
        { apply Good_visit; auto; [|left; left; reflexivity]. apply (Good_weaken s PA PB); auto using incl_refl. intros x Hx. right. exact Hx. }
        destruct G' as (G1 & G2 & G3).
        assert (OB : okB (add_sink m (visit s (n, u))) u) by (unfold okB; rewrite K; split; [left; reflexivity|exact Nm]).
        split; [|split].
        + intros x y Hxy. destruct (G1 x y Hxy) as (K1 & K2 & K3). split; [exact K1|]. split.
          * destruct K2 as [K2|K2]; [left; exact K2|right]. apply (okA_mono (visit s (n, u))); [apply le_add_sink|exact K2].
          * destruct K3 as [[<-|K3]|K3]; [right; exact OB|left; exact K3|right]. apply (okB_mono (visit s (n, u))); [apply le_add_sink|exact K3].
        + exact G2.
        + intros m' [<-|Hm']; [exists n, u, i; split; [left; reflexivity|exact K]|]. apply G3. exact Hm'.
      - intros B.
        destruct (IH true u (visit s (n, u)) (u :: PA) (u :: PB) B) as (G1 & A1); [|left; reflexivity|].
        { apply Good_visit; auto; [|right; exact Hn|left; left; reflexivity].
          apply (Good_weaken s PA PB); auto; intros x Hx; right; exact Hx. }
        pose proof (walk_le f true u (visit s (n, u))) as L.
        assert (IN : In (n, u) (hist (walk g M f true u (visit s (n, u))))) by (apply L; left; reflexivity).
        split; [|exact IN].
        destruct (inner_ok (walk g M f true u (visit s (n, u))) u) as [OA OB]; [left; eauto| |exact A1|].
        { intros a' (k & Hk & Ha'). apply (kind_of_spec D g W) in Hk. rewrite K in Hk. injection Hk as <-. cbn [inputs] in Ha'.
          destruct Ha' as [<-|[]]. destruct E as (k & Hk & Hnk). apply (kind_of_spec D g W) in Hk. rewrite K in Hk. injection Hk as <-.
          destruct Hnk as [<-|[]]. exact IN. }
        apply Good_popB with u; [|exact OB]. apply Good_popA with u; [|exact OA]. exact G1.
      - exfalso. apply (NM u a b). apply (kind_of_spec D g W). exact K.
      - intros B. set (s1 := walk g M f true u (visit s (n, u))) in *.
        pose proof (walk_le f true u (visit s (n, u))) as L1. fold s1 in L1.
        pose proof (walk_le f false u s1) as L2.
        destruct (IH true u (visit s (n, u)) (u :: PA) (u :: PB)) as (G1 & A1); [exact (le_bad _ _ L2 B)| |left; reflexivity|].
        { apply Good_visit; auto; [|right; exact Hn|left; left; reflexivity].
          apply (Good_weaken s PA PB); auto; intros x Hx; right; exact Hx. }
        fold s1 in G1, A1.
        destruct (IH false u s1 (u :: PA) (u :: PB) B G1) as (G2 & A2); [left; reflexivity|].
        split; [|apply L2, L1; left; reflexivity].
        destruct (inner_ok (walk g M f false u s1) u) as [OA OB]; [right; eauto|exact A2|exact (all_out_mono _ _ _ L2 A1)|].
        apply Good_popB with u; [|exact OB]. apply Good_popA with u; [|exact OA]. exact G2. }
    assert (LOOP : forall l, (forall u, In u l -> edge g n u) -> forall s, bad (fold_left F0 l s) = false -> Good s PA PB ->
               Good (fold_left F0 l s) PA PB /\ forall u, In u l -> In (n, u) (hist (fold_left F0 l s))).
    { induction l as [|u l IHl]; intros El s B G; cbn [fold_left] in *; [split; [exact G|intros u []]|].
      pose proof (fold_le F0 l LE (F0 s u)) as L.
      destruct (STEP s u (El u (or_introl eq_refl)) (le_bad _ _ L B) G) as (G1 & I1).
      destruct (IHl (fun v Hv => El v (or_intror Hv)) (F0 s u) B G1) as (G2 & I2).
      split; [exact G2|]. intros v [<-|Hv]; [apply L; exact I1|apply I2; exact Hv]. }
    destruct (LOOP (users g n) (fun u Hu => proj1 (users_edge g n u) Hu) st Hb HG) as (G1 & I1).
    split; [exact G1|]. intros b Eb. apply I1. apply users_edge. exact Eb.
  - (* find_srcs *)
    match type of Hb with bad (fold_left ?F _ _) = _ => set (F0 := F) in * end.
    assert (LE : forall s u, le s (F0 s u)).
    { intros s u. unfold F0. destruct (seen s (u, n)); [apply le_refl|]. cbv zeta. eapply le_trans; [apply le_visit|].
      destruct (kind_of g u) as [[m i|h i|a b|ins c|h ins]|]; try apply le_set_bad; try (eapply le_trans; apply walk_le).
      eapply le_trans; [apply le_add_src|apply walk_le]. }
    assert (INNER : forall s u, is_inner u -> edge g u n -> bad (walk g M f false u (walk g M f true u (visit s (u, n)))) = false -> Good s PA PB ->
                Good (walk g M f false u (walk g M f true u (visit s (u, n)))) PA PB
                /\ In (u, n) (hist (walk g M f false u (walk g M f true u (visit s (u, n)))))).
    { intros s u KI E B G. set (s1 := walk g M f true u (visit s (u, n))) in *.
      pose proof (walk_le f true u (visit s (u, n))) as L1. fold s1 in L1.
      pose proof (walk_le f false u s1) as L2.
      destruct (IH true u (visit s (u, n)) (u :: PA) (u :: PB)) as (G1 & A1); [exact (le_bad _ _ L2 B)| |left; reflexivity|].
      { apply Good_visit; auto; [|left; reflexivity|left; right; exact Hn].
        apply (Good_weaken s PA PB); auto; intros x Hx; right; exact Hx. }
      fold s1 in G1, A1.
      destruct (IH false u s1 (u :: PA) (u :: PB) B G1) as (G2 & A2); [left; reflexivity|].
      split; [|apply L2, L1; left; reflexivity].
      destruct (inner_ok (walk g M f false u s1) u KI A2 (all_out_mono _ _ _ L2 A1)) as [OA OB].
      apply Good_popB with u; [|exact OB]. apply Good_popA with u; [|exact OA]. exact G2. }
    assert (STEP : forall s u, edge g u n -> bad (F0 s u) = false -> Good s PA PB -> Good (F0 s u) PA PB /\ In (u, n) (hist (F0 s u))).
    { intros s u E B G. revert B. unfold F0. destruct (seen s (u, n)) eqn:SE.
      { intros _. split; [exact G|]. apply seen_in. exact SE. }
      cbv zeta. destruct (kind_of g u) as [[m i|h i|a b|ins c|h ins]|] eqn:K; try (cbn; discriminate).
      - intros B. set (s0 := add_src m (visit s (u, n))) in *.
        pose proof (walk_le f true u s0) as L.
        destruct (IH true u s0 (u :: PA) PB B) as (G1 & A1); [|left; reflexivity|].
        { assert (G' : Good (visit s (u, n)) (u :: PA) PB).
          { apply Good_visit; auto; [|left; reflexivity]. apply (Good_weaken s PA PB); auto using incl_refl. intros x Hx. right. exact Hx. }
          destruct G' as (G1 & G2 & G3). split; [|split].
          - intros x y Hxy. destruct (G1 x y Hxy) as (K1 & K2 & K3). split; [exact K1|]. split.
            + destruct K2 as [K2|K2]; [left; exact K2|right]. apply (okA_mono (visit s (u, n))); [apply le_add_src|exact K2].
            + destruct K3 as [K3|K3]; [left; exact K3|right]. apply (okB_mono (visit s (u, n))); [apply le_add_src|exact K3].
          - intros m' [<-|Hm']; [exists u, i; split; [exact K|left; left; reflexivity]|]. apply G2. exact Hm'.
          - exact G3. }
        split; [|apply L; left; reflexivity].
        apply Good_popA with u; [exact G1|]. unfold okA. rewrite K. split; [apply L; left; reflexivity|exact A1].
      - intros B. apply INNER; auto. left. eauto.
      - exfalso. apply (NM u a b). apply (kind_of_spec D g W). exact K.
      - intros B. apply INNER; auto. right. eauto. }
    assert (LOOP : forall l, (forall u, In u l -> edge g u n) -> forall s, bad (fold_left F0 l s) = false -> Good s PA PB ->
               Good (fold_left F0 l s) PA PB /\ forall u, In u l -> In (u, n) (hist (fold_left F0 l s))).
    { induction l as [|u l IHl]; intros El s B G; cbn [fold_left] in *; [split; [exact G|intros u []]|].
      pose proof (fold_le F0 l LE (F0 s u)) as L.
      destruct (STEP s u (El u (or_introl eq_refl)) (le_bad _ _ L B) G) as (G1 & I1).
      destruct (IHl (fun v Hv => El v (or_intror Hv)) (F0 s u) B G1) as (G2 & I2).
      split; [exact G2|]. intros v [<-|Hv]; [apply L; exact I1|apply I2; exact Hv]. }
    destruct (LOOP (ins_of g n) (fun u Hu => proj1 (ins_edge D g u n W) Hu) st Hb HG) as (G1 & I1).
    split; [exact G1|]. intros a Ea. apply I1. apply (ins_edge D g a n W). exact Ea.
Qed.

(** A valid region is closed. *)
Lemma region_closed n st : region g M n = Some st -> Good st [] [].
Proof.
  unfold region. destruct (kind_of g n) as [[m i|h i|a b|ins c|h ins]|] eqn:K; try discriminate.
  set (st' := walk g M (S (n_edges g)) true n (Equalize.W [m] [] [] false)).
  destruct (bad st') eqn:B; cbn [negb andb]; [discriminate|].
  destruct (length (sinks st') =? 0)%nat; cbn [negb]; [discriminate|]. intros [= <-].
  pose proof (walk_le (S (n_edges g)) true n (Equalize.W [m] [] [] false)) as L.
  destruct (walk_spec (S (n_edges g)) true n (Equalize.W [m] [] [] false) [n] [] B) as (G1 & A1); [|left; reflexivity|].
  - split; [|split]; cbn; [intros a b []| |intros m' []]. intros m' [<-|[]]. exists n, i. split; [exact K|left; left; reflexivity].
  - apply Good_popA with n; [exact G1|]. unfold okA. rewrite K. split; [apply L; left; reflexivity|exact A1].
Qed.
End Closure.

(** ** Values inside and outside a region *)

Lemma mem_in m l : mem m l = true <-> In m l.
Proof.
  unfold mem. rewrite existsb_exists. split; [intros (x & H & E); apply Nat.eqb_eq in E; subst; exact H|].
  intros H. exists m. split; [exact H|apply Nat.eqb_refl].
Qed.

(** Membership of a node in the region. *)
Definition in_region (g : graph) (st : wstate) (v : nat) : bool :=
  match kind_of g v with
  | Some (KLayer m _) => mem m (srcs st)
  | Some (KInv _ _) | Some (KAdd _ _) => existsb (fun e => (fst e =? v) || (snd e =? v))%nat (hist st)
  | _ => false
  end.

Section Scaling.
Variables (D : list nat) (g : graph) (M0 : modules) (st : wstate).
Hypothesis W : wf D g.
Hypothesis US : unshared g.
Hypothesis NM : no_mul g.
Hypothesis NC : no_add_const g.
Hypothesis IH_ : inv_hom g.
Hypothesis G : Good g M0 st [] [].

Lemma touched v : existsb (fun e => (fst e =? v) || (snd e =? v))%nat (hist st) = true <->
  exists a b, In (a, b) (hist st) /\ (a = v \/ b = v).
Proof.
  rewrite existsb_exists. split.
  - intros ([a b] & H & E). cbn [fst snd] in E. apply orb_prop in E. exists a, b. split; [exact H|].
    destruct E as [E|E]; apply Nat.eqb_eq in E; auto.
  - intros (a & b & H & E). exists (a, b). split; [exact H|]. cbn [fst snd].
    destruct E as [->| ->]; rewrite Nat.eqb_refl; [reflexivity|apply orb_true_r].
Qed.

Lemma hist_ok a b : In (a, b) (hist st) -> edge g a b /\ okA g st a /\ okB g M0 st b.
Proof.
  destruct G as (G1 & _). intros H. destruct (G1 a b H) as (K1 & [[]|K2] & [[]|K3]). auto.
Qed.

Lemma okA_in a : okA g st a -> (exists b, In (a, b) (hist st)) -> in_region g st a = true.
Proof.
  unfold okA, in_region. intros H (b & Hb). destruct (kind_of g a) as [[m i|h i|x y|ins c|h ins]|]; try contradiction.
  - apply mem_in. apply H.
  - apply touched. exists a, b. auto.
  - apply touched. exists a, b. auto.
Qed.

(** Edges leaving a region node are recorded. *)
Lemma region_out a b : in_region g st a = true -> edge g a b -> In (a, b) (hist st).
Proof.
  unfold in_region. intros H E. destruct (kind_of g a) as [[m i|h i|x y|ins c|h ins]|] eqn:K; try discriminate.
  - apply mem_in in H. destruct G as (_ & G2 & _). destruct (G2 m H) as (a' & i' & Ka & [[]|A]).
    assert (a' = a) as -> by (eapply US; apply (kind_of_spec D g W); eassumption). apply A. exact E.
  - apply touched in H. destruct H as (x & y & Hxy & [->| ->]); destruct (hist_ok _ _ Hxy) as (_ & O1 & O2);
      [unfold okA in O1; rewrite K in O1; apply O1|unfold okB in O2; rewrite K in O2; apply O2]; exact E.
  - apply touched in H. destruct H as (x & y & Hxy & [->| ->]); destruct (hist_ok _ _ Hxy) as (_ & O1 & O2);
      [unfold okA in O1; rewrite K in O1; apply O1|unfold okB in O2; rewrite K in O2; apply O2]; exact E.
Qed.

(** Edges entering an inner region node come from the region. *)
Lemma region_in a b k : kind_of g b = Some k -> (match k with KInv _ _ | KAdd _ _ => True | _ => False end) ->
  in_region g st b = true -> edge g a b -> in_region g st a = true.
Proof.
  intros K Hk H E. assert (HI : In (a, b) (hist st)).
  { unfold in_region in H. rewrite K in H. destruct k as [m i|h i|x y|ins c|h ins]; try contradiction;
      apply touched in H; destruct H as (x & y & Hxy & [->| ->]); destruct (hist_ok _ _ Hxy) as (_ & O1 & O2);
      [unfold okA in O1; rewrite K in O1; apply O1|unfold okB in O2; rewrite K in O2; apply O2
      |unfold okA in O1; rewrite K in O1; apply O1|unfold okB in O2; rewrite K in O2; apply O2]; exact E. }
  apply okA_in; [apply (hist_ok a b HI)|]. exists b. exact HI.
Qed.

Lemma region_down a b k : kind_of g b = Some k -> (match k with KInv _ _ | KAdd _ _ => True | _ => False end) ->
  in_region g st a = true -> edge g a b -> in_region g st b = true.
Proof.
  intros K Hk H E. pose proof (region_out a b H E) as HI. unfold in_region. rewrite K.
  destruct k; try contradiction; apply touched; exists a, b; auto.
Qed.

(** A layer is a sink iff its input is in the region. *)
Lemma sink_iff b m i : kind_of g b = Some (KLayer m i) -> (mem m (sinks st) = true <-> in_region g st i = true).
Proof.
  intros K. assert (E : edge g i b) by (exists (KLayer m i); split; [apply (kind_of_spec D g W); exact K|left; reflexivity]).
  split.
  - intros H. apply mem_in in H. destruct G as (_ & _ & G3). destruct (G3 m H) as (a & b' & i' & Hh & Kb).
    assert (b' = b) as -> by (eapply US; apply (kind_of_spec D g W); eassumption).
    destruct (hist_ok a b Hh) as (Eab & O1 & _). destruct Eab as (k & Hk & Ha). apply (kind_of_spec D g W) in Hk.
    rewrite K in Hk. injection Hk as <-. destruct Ha as [<-|[]]. apply okA_in; [exact O1|]. exists b. exact Hh.
  - intros H. pose proof (region_out i b H E) as HI. destruct (hist_ok i b HI) as (_ & _ & O2). unfold okB in O2. rewrite K in O2.
    apply mem_in. apply O2.
Qed.

Lemma sink_not_norm b m i : kind_of g b = Some (KLayer m i) -> mem m (sinks st) = true -> is_norm (M0 m) = false.
Proof.
  intros K H. apply (sink_iff b m i K) in H.
  assert (E : edge g i b) by (exists (KLayer m i); split; [apply (kind_of_spec D g W); exact K|left; reflexivity]).
  pose proof (region_out i b H E) as HI. destruct (hist_ok i b HI) as (_ & _ & O2). unfold okB in O2. rewrite K in O2. apply O2.
Qed.

Lemma other_out a b k : kind_of g b = Some k -> (match k with KOther _ _ => True | _ => False end) -> edge g a b -> in_region g st a = false.
Proof.
  intros K Hk E. destruct (in_region g st a) eqn:H; [|reflexivity]. exfalso.
  pose proof (region_out a b H E) as HI. destruct (hist_ok a b HI) as (_ & _ & O2). unfold okB in O2. rewrite K in O2.
  destruct k; contradiction.
Qed.

(** Relation of the values before and after: inside the region channel [c] of the new value is
    channel [par c] of the old one times [fac c]. *)
Variables (M M' : modules) (par : nat -> nat) (fac : nat -> R).
Hypothesis Hf : forall c, 0 <= fac c.
Definition rescale (x : value) : value := fun c p => x (par c) p * fac c.
(** The new modules: a sink reads rescaled values, a source produces them. *)
Hypothesis HL : forall b m i x, kind_of g b = Some (KLayer m i) ->
  fwd (M' m) (if mem m (sinks st) then rescale x else x) = if mem m (srcs st) then rescale (fwd (M m) x) else fwd (M m) x.

Definition expect (v : nat) (x : value) : value := if in_region g st v then rescale x else x.

Lemma vsum_rescale es : vsum (map rescale es) = rescale (vsum es).
Proof.
  apply functional_extensionality. intros c. apply functional_extensionality. intros p. unfold vsum, rescale.
  rewrite map_map. apply (Rsum_scale (fun v : value => v (par c) p) _ (fac c)). intros a. reflexivity.
Qed.

Lemma hom_nonneg f : hom f -> forall r x p, 0 <= r -> f (fun q => x q * r) p = f x p * r.
Proof.
  intros H r x p Hr. destruct (Rle_lt_or_eq_dec 0 r Hr) as [L|<-]; [apply H; exact L|].
  assert (Z : (fun q => x q * 0) = (fun _ : nat => 0)) by (apply functional_extensionality; intros q; ring). rewrite Z.
  pose proof (H 2 (fun _ => 0) p ltac:(lra)) as E. cbn beta in E.
  assert (Z2 : (fun q : nat => 0 * 2) = (fun _ : nat => 0)) by (apply functional_extensionality; intros q; ring).
  rewrite Z2 in E. lra.
Qed.

Lemma eval_kind_rel e1 e2 i k : kind_of g i = Some k -> (forall a, In a (inputs k) -> e2 a = expect a (e1 a)) ->
  eval_kind M' e2 k = expect i (eval_kind M e1 k).
Proof.
  intros K HE. pose proof (proj2 (kind_of_spec D g W i k) K) as KI.
  assert (ED : forall a, In a (inputs k) -> edge g a i) by (intros a Ha; exists k; auto).
  destruct k as [m a|f a|a b|ins c|f ins]; cbn [eval_kind inputs] in *.
  - rewrite (HE a (or_introl eq_refl)). unfold expect at 2. unfold in_region. rewrite K.
    rewrite <- (HL i m a (e1 a) K). unfold expect. f_equal.
    pose proof (sink_iff i m a K) as SI. destruct (mem m (sinks st)), (in_region g st a); try reflexivity;
      [destruct SI as [SI _]|destruct SI as [_ SI]]; specialize (SI eq_refl); discriminate.
  - rewrite (HE a (or_introl eq_refl)). unfold expect.
    destruct (in_region g st a) eqn:Ra.
    + rewrite (region_down a i _ K I Ra (ED a (or_introl eq_refl))).
      apply functional_extensionality. intros c. apply functional_extensionality. intros p.
      unfold rescale. apply hom_nonneg; [exact (IH_ i f a KI)|apply Hf].
    + destruct (in_region g st i) eqn:Ri; [|reflexivity].
      rewrite (region_in a i _ K I Ri (ED a (or_introl eq_refl))) in Ra. discriminate.
  - exfalso. apply (NM i a b KI).
  - rewrite (NC i ins c KI). unfold expect. destruct (in_region g st i) eqn:Ri.
    + assert (E : map e2 ins = map rescale (map e1 ins)).
      { rewrite map_map. apply map_ext_in. intros a Ha. rewrite (HE a Ha). unfold expect.
        rewrite (region_in a i _ K I Ri (ED a Ha)). reflexivity. }
      rewrite E, vsum_rescale. apply functional_extensionality. intros ch. apply functional_extensionality. intros p.
      unfold rescale. ring.
    + assert (E : map e2 ins = map e1 ins).
      { apply map_ext_in. intros a Ha. rewrite (HE a Ha). unfold expect.
        destruct (in_region g st a) eqn:Ra; [|reflexivity]. rewrite (region_down a i _ K I Ra (ED a Ha)) in Ri. discriminate. }
      rewrite E. reflexivity.
  - assert (E : map e2 ins = map e1 ins).
    { apply map_ext_in. intros a Ha. rewrite (HE a Ha). unfold expect. rewrite (other_out a i _ K I (ED a Ha)). reflexivity. }
    rewrite E. unfold expect, in_region. rewrite K. reflexivity.
Qed.

Lemma eval_rel : forall suf pre dn e1 e2, g = pre ++ suf -> wf dn suf ->
  (forall a, In a dn -> e2 a = expect a (e1 a)) ->
  forall v, In v dn \/ In v (map fst suf) -> eval suf M' e2 v = expect v (eval suf M e1 v).
Proof.
  induction suf as [|[i k] suf IH]; intros pre dn e1 e2 Eg Wd HE v Hv; cbn [eval].
  - destruct Hv as [Hv|[]]. apply HE. exact Hv.
  - cbn [wf] in Wd. destruct Wd as (N1 & N2 & N3).
    apply (IH (pre ++ [(i, k)]) (i :: dn)).
    + rewrite <- app_assoc. exact Eg.
    + exact N3.
    + intros a Ha. destruct (Nat.eqb_spec a i) as [->|Nai].
      * apply eval_kind_rel; [|intros b Hb; apply HE, N2, Hb].
        apply (kind_of_spec D g W). rewrite Eg. apply in_or_app. right. left. reflexivity.
      * destruct Ha as [<-|Ha]; [congruence|]. apply HE. exact Ha.
    + cbn [map fst In] in *. tauto.
Qed.

(** Values inside the region are rescaled, all others are unchanged. *)
Lemma region_rescales e v : In v D \/ In v (map fst g) -> eval g M' e v = expect v (eval g M e v).
Proof.
  intros Hv. apply (eval_rel g [] D e e eq_refl W); [|exact Hv].
  intros a Ha. unfold expect, in_region.
  destruct (kind_of g a) as [k|] eqn:K; [|reflexivity].
  exfalso. apply (kind_of_spec D g W) in K. exact (wf_not_in D g W a k K Ha).
Qed.
End Scaling.

Lemma other_expect g st par fac v f ins x : kind_of g v = Some (KOther f ins) -> expect g st par fac v x = x.
Proof. intros K. unfold expect, in_region. rewrite K. reflexivity. Qed.

(** ** Equalization *)

Definition scaled (s : nat -> R) (x : value) : value := fun c p => x c p * / s c.

Lemma Rsum_map_ext {A} (f h : A -> R) l : (forall a, f a = h a) -> Rsum (map f l) = Rsum (map h l).
Proof. intros H. induction l as [|a l IH]; cbn [map Rsum]; [reflexivity|]. rewrite H, IH. reflexivity. Qed.

Lemma fwd_src s m x : (forall c, 0 < s c) -> fwd (scale_src s m) x = scaled s (fwd m x).
Proof.
  intros Hs. apply functional_extensionality. intros o. apply functional_extensionality. intros p.
  unfold scaled. destruct m as [n_in n_out K tap w b|n h w b]; cbn [scale_src fwd].
  - destruct (o <? n_out)%nat; [|ring]. rewrite Rmult_plus_distr_r. f_equal.
    rewrite (Rsum_scale (fun i => Rsum (map (fun k => w o i k * read (x i) (tap p k)) (seq 0 K))) _ (/ s o)); [reflexivity|].
    intros i. apply Rsum_scale. intros k. ring.
  - ring.
Qed.

Lemma read_scaled s x i q : read (scaled s x i) q = read (x i) q * / s i.
Proof. destruct q; cbn [read]; unfold scaled; ring. Qed.

Lemma fwd_sink s m x : (forall c, 0 < s c) -> is_norm m = false -> fwd (scale_sink s m) (scaled s x) = fwd m x.
Proof.
  intros Hs Hm. destruct m as [n_in n_out K tap w b|n h w b]; [|discriminate].
  apply functional_extensionality. intros o. apply functional_extensionality. intros p. cbn [scale_sink fwd].
  destruct (o <? n_out)%nat; [|reflexivity]. f_equal. apply Rsum_map_ext. intros i. apply Rsum_map_ext. intros k. rewrite read_scaled. specialize (Hs i). field. lra.
Qed.

Lemma is_norm_src s m : is_norm (scale_src s m) = is_norm m. Proof. destruct m; reflexivity. Qed.
Lemma is_norm_sink s m : is_norm (scale_sink s m) = is_norm m. Proof. destruct m; reflexivity. Qed.

(** One region, any positive factors: values inside are divided by the factors, all others are
    unchanged. *)
Theorem region_preserves : forall D g M0 n st M s e,
  wf D g -> unshared g -> no_mul g -> no_add_const g -> inv_hom g ->
  region g M0 n = Some st -> (forall m, is_norm (M m) = is_norm (M0 m)) -> (forall c, 0 < s c) ->
  forall v, In v D \/ In v (map fst g) ->
  eval g (apply_region st s M) e v = expect g st (fun c => c) (fun c => / s c) v (eval g M e v).
Proof.
  intros D g M0 n st M s e W US NM NC IH R MN Hs v Hv.
  pose proof (region_closed D g M0 W NM n st R) as G.
  apply (region_rescales D g M0 st W US NM NC IH G); [|intros b m i x K|exact Hv].
  - intros c. left. apply Rinv_0_lt_compat, Hs.
  - change (rescale (fun c => c) (fun c => / s c)) with (scaled s).
    unfold apply_region. destruct (mem m (sinks st)) eqn:Sk.
    + pose proof (sink_not_norm D g M0 st W US G b m i K Sk) as Nn. rewrite <- MN in Nn.
      destruct (mem m (srcs st)).
      * rewrite fwd_sink; [apply fwd_src; exact Hs|exact Hs|rewrite is_norm_src; exact Nn].
      * apply fwd_sink; assumption.
    + destruct (mem m (srcs st)); [apply fwd_src; exact Hs|reflexivity].
Qed.

(** ** Fuel: every recursive call follows a new edge, so the number of edges is enough. *)
Definition edges (g : graph) : list (nat * nat) := flat_map (fun x => map (fun a => (a, fst x)) (inputs (snd x))) g.
Definition todo (g : graph) (st : wstate) : nat := length (filter (fun e => negb (seen st e)) (edges g)).

Lemma edges_length g : length (edges g) = n_edges g.
Proof.
  unfold edges, n_edges. induction g as [|[i k] g IH]; cbn [flat_map fold_right]; [reflexivity|].
  rewrite app_length, map_length, IH. reflexivity.
Qed.
Lemma edge_in_edges g a b : edge g a b -> In (a, b) (edges g).
Proof.
  intros (k & H1 & H2). unfold edges. apply in_flat_map. exists (b, k). split; [exact H1|].
  cbn [fst snd]. apply in_map_iff. exists a. split; [reflexivity|exact H2].
Qed.

Lemma filter_le {A} (p q : A -> bool) l : (forall x, In x l -> p x = true -> q x = true) -> (length (filter p l) <= length (filter q l))%nat.
Proof.
  induction l as [|x l IH]; intros H; cbn [filter]; [lia|].
  assert (IH' : (length (filter p l) <= length (filter q l))%nat) by (apply IH; intros y Hy; apply H; right; exact Hy).
  destruct (p x) eqn:P; [rewrite (H x (or_introl eq_refl) P); cbn [length]; lia|].
  destruct (q x); cbn [length]; lia.
Qed.
Lemma filter_lt {A} (p q : A -> bool) l a : In a l -> p a = false -> q a = true ->
  (forall x, In x l -> p x = true -> q x = true) -> (length (filter p l) < length (filter q l))%nat.
Proof.
  induction l as [|x l IH]; intros Ha Pa Qa H; [destruct Ha|]. cbn [filter]. destruct Ha as [->|Ha].
  - rewrite Pa, Qa. cbn [length]. pose proof (filter_le p q l (fun y Hy => H y (or_intror Hy))). lia.
  - specialize (IH Ha Pa Qa (fun y Hy => H y (or_intror Hy))).
    destruct (p x) eqn:P; [rewrite (H x (or_introl eq_refl) P); cbn [length]; lia|]. destruct (q x); cbn [length]; lia.
Qed.

Lemma seen_mono s t e : le s t -> seen s e = true -> seen t e = true.
Proof. destruct e as [a b]. intros (_ & _ & L & _) H. apply seen_in. apply L. apply seen_in. exact H. Qed.
Lemma todo_mono g s t : le s t -> (todo g t <= todo g s)%nat.
Proof.
  intros L. apply filter_le. intros x _ H. apply negb_true_iff in H. apply negb_true_iff.
  destruct (seen s x) eqn:E; [rewrite (seen_mono s t x L E) in H; discriminate|reflexivity].
Qed.
Lemma todo_visit g s a b : edge g a b -> seen s (a, b) = false -> (todo g (visit s (a, b)) < todo g s)%nat.
Proof.
  intros E H. apply filter_lt with (a, b).
  - apply edge_in_edges. exact E.
  - apply negb_false_iff. apply seen_in. left. reflexivity.
  - apply negb_true_iff. exact H.
  - intros x _ Hx. apply negb_true_iff in Hx. apply negb_true_iff.
    destruct (seen s x) eqn:Ex; [|reflexivity]. rewrite (seen_mono s _ x (le_visit s (a, b)) Ex) in Hx. discriminate.
Qed.

Lemma fold_congr {A} (F1 F2 : wstate -> A -> wstate) (I : wstate -> Prop) l :
  (forall s u, I s -> In u l -> F1 s u = F2 s u) -> (forall s u, I s -> I (F1 s u)) ->
  forall s, I s -> fold_left F1 l s = fold_left F2 l s.
Proof.
  intros H HI. induction l as [|u l IH]; intros s Is; cbn [fold_left]; [reflexivity|].
  rewrite <- (H s u Is (or_introl eq_refl)). apply IH; [|apply HI; exact Is].
  intros t v It Hv. apply H; [exact It|right; exact Hv].
Qed.

Lemma walk_fuel D g M : wf D g -> forall f1 f2 down n st, (todo g st < f1)%nat -> (todo g st < f2)%nat ->
  walk g M f1 down n st = walk g M f2 down n st.
Proof.
  intros W. induction f1 as [|f1 IH]; intros f2 down n st H1 H2; [lia|]. destruct f2 as [|f2]; [lia|]. cbn [walk].
  assert (IHm : forall d u s t, le s t -> (todo g s <= f1)%nat -> (todo g s <= f2)%nat -> forall a b, edge g a b -> seen s (a, b) = false ->
             le (visit s (a, b)) t -> walk g M f1 d u t = walk g M f2 d u t).
  { intros d u s t L T1 T2 a b E S L'. pose proof (todo_visit g s a b E S). pose proof (todo_mono g _ _ L'). apply IH; lia. }
  destruct down.
  - apply (fold_congr _ _ (fun s => (todo g s <= f1)%nat /\ (todo g s <= f2)%nat)).
    + intros s u (T1 & T2) Hu. apply users_edge in Hu. destruct (seen s (n, u)) eqn:S; [reflexivity|]. cbv zeta.
      pose proof (le_visit s (n, u)) as LV.
      destruct (kind_of g u) as [[m i|h i|a b|ins c|h ins]|]; try reflexivity.
      * apply (IHm true u s _ LV T1 T2 n u Hu S). apply le_refl.
      * apply (IHm true u s _ LV T1 T2 n u Hu S). apply le_refl.
      * rewrite <- (IHm true u s _ LV T1 T2 n u Hu S (le_refl _)).
        apply (IHm false u s _ (le_trans _ _ _ LV (walk_le g M f1 true u _)) T1 T2 n u Hu S). apply walk_le.
    + intros s u (T1 & T2). pose proof (walk_le g M) as WL.
      match goal with |- (todo g ?t <= _)%nat /\ _ => assert (L : le s t) end.
      { destruct (seen s (n, u)); [apply le_refl|]. cbv zeta. eapply le_trans; [apply le_visit|].
        destruct (kind_of g u) as [[m i|h i|a b|ins c|h ins]|]; try apply le_set_bad; try apply WL.
        - destruct (is_norm (M m)); [apply le_set_bad|apply le_add_sink].
        - eapply le_trans; apply WL. }
      pose proof (todo_mono g _ _ L). lia.
    + lia.
  - apply (fold_congr _ _ (fun s => (todo g s <= f1)%nat /\ (todo g s <= f2)%nat)).
    + intros s u (T1 & T2) Hu. apply (ins_edge D g u n W) in Hu. destruct (seen s (u, n)) eqn:S; [reflexivity|]. cbv zeta.
      pose proof (le_visit s (u, n)) as LV.
      assert (IN : walk g M f1 false u (walk g M f1 true u (visit s (u, n))) = walk g M f2 false u (walk g M f2 true u (visit s (u, n)))).
      { rewrite <- (IHm true u s _ LV T1 T2 u n Hu S (le_refl _)).
        apply (IHm false u s _ (le_trans _ _ _ LV (walk_le g M f1 true u _)) T1 T2 u n Hu S). apply walk_le. }
      destruct (kind_of g u) as [[m i|h i|a b|ins c|h ins]|]; try reflexivity; try exact IN.
      apply (IHm true u s _ (le_trans _ _ _ LV (le_add_src _ m)) T1 T2 u n Hu S). apply le_add_src.
    + intros s u (T1 & T2). pose proof (walk_le g M) as WL.
      match goal with |- (todo g ?t <= _)%nat /\ _ => assert (L : le s t) end.
      { destruct (seen s (u, n)); [apply le_refl|]. cbv zeta. eapply le_trans; [apply le_visit|].
        destruct (kind_of g u) as [[m i|h i|a b|ins c|h ins]|]; try apply le_set_bad; try (eapply le_trans; apply WL).
        eapply le_trans; [apply le_add_src|apply WL]. }
      pose proof (todo_mono g _ _ L). lia.
    + lia.
Qed.

Lemma todo_bound g st : (todo g st <= n_edges g)%nat.
Proof.
  rewrite <- edges_length. unfold todo. induction (edges g) as [|x l IH]; cbn [filter length]; [lia|]. destruct (negb _); cbn [length]; lia.
Qed.
