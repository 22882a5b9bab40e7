(** C50 (state-dict renaming) and C66 (routing of recurrent-stack checkpoints). *)
From Coq Require Import List Bool String Ascii Arith Lia.
From Verif Require Import StateDict.
Import ListNotations.
Open Scope string_scope.

(** ** Dictionaries *)
Section Dict.
  Context {V : Type}.
  Implicit Types (d : dict V) (key : string) (v : V).
  Lemma get_set_same d key v : get (set d key v) key = Some v.
  Proof.
    induction d as [|[a u] d IH]; cbn; [rewrite String.eqb_refl; reflexivity|].
    destruct (String.eqb a key) eqn:E; cbn; rewrite E; [reflexivity|exact IH].
  Qed.
  Lemma get_set_other d key key' v : key <> key' -> get (set d key v) key' = get d key'.
  Proof.
    intros N. induction d as [|[a u] d IH]; cbn.
    - destruct (String.eqb_spec key key'); [contradiction|reflexivity].
    - destruct (String.eqb_spec a key) as [->|E]; cbn; [|destruct (String.eqb a key'); [reflexivity|exact IH]].
      destruct (String.eqb_spec key key'); [contradiction|reflexivity].
  Qed.
  Lemma get_without_same d key : get (without d key) key = None.
  Proof.
    induction d as [|[a u] d IH]; cbn; [reflexivity|]. destruct (String.eqb a key) eqn:E; cbn; [exact IH|rewrite E; exact IH].
  Qed.
  Lemma get_without_other d key key' : key <> key' -> get (without d key) key' = get d key'.
  Proof.
    intros N. induction d as [|[a u] d IH]; cbn; [reflexivity|]. destruct (String.eqb_spec a key) as [->|E]; cbn.
    - destruct (String.eqb_spec key key'); [contradiction|exact IH].
    - destruct (String.eqb a key'); [reflexivity|exact IH].
  Qed.
  Lemma get_in d key : get d key <> None <-> In key (keys d).
  Proof.
    induction d as [|[a u] d IH]; cbn; [tauto|]. destruct (String.eqb_spec a key) as [->|E]; [split; [auto|discriminate]|].
    rewrite IH. split; [auto|]. intros [H|H]; [contradiction|exact H].
  Qed.
  Lemma get_notin d key : get d key = None <-> ~ In key (keys d).
  Proof. rewrite <- get_in. destruct (get d key); split; intros H; try congruence; try (intros K; congruence). exfalso. apply H. discriminate. Qed.
  Lemma in_get d key v : NoDup (keys d) -> In (key, v) d -> get d key = Some v.
  Proof.
    induction d as [|[a u] d IH]; cbn; intros ND H; [contradiction|]. inversion_clear ND as [|? ? N1 N2]. destruct H as [H|H].
    - injection H as <- <-. rewrite String.eqb_refl. reflexivity.
    - destruct (String.eqb_spec a key) as [->|E]; [|apply IH; assumption]. exfalso. apply N1. apply in_map_iff. exists (key, v). auto.
  Qed.

  (** Moving a set of keys without collisions. *)
  Lemma move_keys_ok km : forall d, NoDup (map fst km) -> NoDup (map snd km) ->
    (forall o nw, In (o, nw) km -> get d o <> None) ->
    (forall o nw, In (o, nw) km -> get d nw <> None -> nw = o) ->
    exists d', move_keys km d = Some d'
    /\ (forall o nw, In (o, nw) km -> get d' nw = get d o)
    /\ (forall key, ~ In key (map fst km) -> ~ In key (map snd km) -> get d' key = get d key)
    /\ (forall key, In key (map fst km) -> ~ In key (map snd km) -> get d' key = None).
  Proof.
    induction km as [|[o nw] km IH]; intros d N1 N2 HP HC.
    - exists d. repeat split; cbn; intros; try contradiction; reflexivity.
    - cbn [map fst snd] in *. inversion_clear N1 as [|? ? O1 N1']. inversion_clear N2 as [|? ? O2 N2'].
      assert (HO : get d o <> None) by (apply (HP o nw); left; reflexivity).
      cbn [move_keys]. unfold pop. destruct (get d o) as [v|] eqn:EV; [|contradiction].
      set (d1 := set (without d o) nw v).
      assert (Hold : forall o' nw', In (o', nw') km -> get d1 o' = get d o').
      { intros o' nw' Hin. assert (o' <> o). { intros ->. apply O1. apply in_map_iff. exists (o, nw'). auto. }
        assert (o' <> nw). { intros ->. assert (nw = o); [|congruence]. apply (HC o nw); [left; reflexivity|]. apply (HP nw nw'). right. exact Hin. }
        unfold d1. rewrite get_set_other, get_without_other by congruence. reflexivity. }
      destruct (IH d1 N1' N2') as (d' & E & A & B & C).
      + intros o' nw' Hin. rewrite (Hold o' nw' Hin). apply (HP o' nw'). right. exact Hin.
      + intros o' nw' Hin Hg. assert (nw' <> nw). { intros ->. apply O2. apply in_map_iff. exists (o', nw). auto. }
        unfold d1 in Hg. rewrite get_set_other in Hg by congruence. apply (HC o' nw'); [right; exact Hin|].
        destruct (string_dec o nw') as [->|Ne]; [rewrite get_without_same in Hg; contradiction|]. rewrite get_without_other in Hg by exact Ne. exact Hg.
      + assert (D1 : forall key, ~ In key (map snd km) -> key <> nw -> get d' key = if in_dec string_dec key (o :: map fst km) then None else get d key).
        { intros key K1 K2. destruct (in_dec string_dec key (map fst km)) as [I|I].
          - rewrite (C key I K1). destruct (in_dec string_dec key (o :: map fst km)) as [_|K]; [reflexivity|]. exfalso. apply K. right. exact I.
          - rewrite (B key I K1). unfold d1. rewrite get_set_other by congruence.
            destruct (in_dec string_dec key (o :: map fst km)) as [K|K].
            + destruct K as [<-|K]; [apply get_without_same|contradiction].
            + apply get_without_other. intros ->. apply K. left. reflexivity. }
        exists d'. repeat split.
        * exact E.
        * intros o' nw' [H|H]; [injection H as <- <-|rewrite (A o' nw' H); apply (Hold o' nw' H)].
          assert (NI : ~ In nw (map fst km)).
          { intros K. apply in_map_iff in K. destruct K as ([o' nw'] & E' & Hin). cbn in E'. subst o'.
            assert (nw = o). { apply (HC o nw); [left; reflexivity|]. apply (HP nw nw'). right. exact Hin. }
            subst nw. apply O1. apply in_map_iff. exists (o, nw'). auto. }
          rewrite (B nw NI O2). unfold d1. rewrite get_set_same, EV. reflexivity.
        * intros key K1 K2. rewrite (D1 key) by (cbn in K2; tauto || (intros ->; apply K2; left; reflexivity)).
          destruct (in_dec string_dec key (o :: map fst km)) as [K|K]; [contradiction|reflexivity].
        * intros key K1 K2. rewrite (D1 key) by (cbn in K2; tauto || (intros ->; apply K2; left; reflexivity)).
          destruct (in_dec string_dec key (o :: map fst km)) as [K|K]; [reflexivity|contradiction].
  Qed.
End Dict.

(** ** Strings *)
Lemma take_app a b : take (length a) (a ++ b) = a.
Proof. induction a as [|c a IH]; cbn; [destruct b; reflexivity|]. rewrite IH. reflexivity. Qed.
Lemma drop_app a b : drop (length a) (a ++ b) = b.
Proof. induction a as [|c a IH]; cbn; [destruct b; reflexivity|exact IH]. Qed.
Lemma app_length a b : length (a ++ b) = length a + length b.
Proof. induction a as [|c a IH]; cbn; [reflexivity|]. rewrite IH. reflexivity. Qed.
Lemma take_drop m s : take m s ++ drop m s = s.
Proof. revert s. induction m as [|m IH]; intros [|c s]; cbn; try reflexivity. rewrite IH. reflexivity. Qed.
Lemma drop_length m s : length (drop m s) = length s - m.
Proof. revert s. induction m as [|m IH]; intros [|c s]; cbn; auto. Qed.
Lemma app_assoc_s a b c : (a ++ b) ++ c = a ++ (b ++ c).
Proof. induction a as [|x a IH]; cbn; [reflexivity|]. rewrite IH. reflexivity. Qed.
Lemma app_inj_l a b c : a ++ b = a ++ c -> b = c.
Proof. induction a as [|x a IH]; cbn; intros H; [exact H|]. injection H as H. exact (IH H). Qed.
Lemma app_nil_s a : a ++ "" = a.
Proof. induction a as [|x a IH]; cbn; [reflexivity|]. rewrite IH. reflexivity. Qed.
Lemma app_inj_r a b c : a ++ c = b ++ c -> a = b.
Proof.
  revert b. induction a as [|x a IH]; intros [|y b] H; cbn in *; [reflexivity| | |].
  - exfalso. apply (f_equal length) in H. cbn in H. rewrite app_length in H. lia.
  - exfalso. apply (f_equal length) in H. cbn in H. rewrite app_length in H. lia.
  - injection H as -> H. rewrite (IH b H). reflexivity.
Qed.

Lemma startswith_iff s p : startswith s p = true <-> exists r, s = p ++ r.
Proof.
  unfold startswith. rewrite andb_true_iff, String.eqb_eq, Nat.leb_le. split.
  - intros [E _]. exists (drop (length p) s). rewrite <- (take_drop (length p) s) at 1. rewrite E. reflexivity.
  - intros [r ->]. rewrite take_app, app_length. split; [reflexivity|lia].
Qed.
Lemma endswith_iff s p : endswith s p = true <-> exists r, s = r ++ p.
Proof.
  unfold endswith. rewrite andb_true_iff, String.eqb_eq, Nat.leb_le. split.
  - intros [E _]. exists (take (length s - length p) s). rewrite <- (take_drop (length s - length p) s) at 1. rewrite E. reflexivity.
  - intros [r ->]. rewrite app_length. replace (length r + length p - length p) with (length r) by lia. rewrite drop_app. split; [reflexivity|lia].
Qed.

(** ** C50 *)
Lemma prefix_map_in {V} old new (d : dict V) o nw : In (o, nw) (prefix_map old new d) <-> exists r, o = old ++ r /\ nw = new ++ r /\ In o (keys d).
Proof.
  unfold prefix_map. rewrite in_map_iff. split.
  - intros (key & E & H). injection E as -> <-. apply filter_In in H. destruct H as [H S]. apply startswith_iff in S. destruct S as [r ->].
    exists r. rewrite drop_app. auto.
  - intros (r & -> & -> & H). exists (old ++ r). rewrite drop_app. split; [reflexivity|]. apply filter_In. split; [exact H|]. apply startswith_iff. exists r. reflexivity.
Qed.
Lemma postfix_map_in {V} old new (d : dict V) o nw : In (o, nw) (postfix_map old new d) <-> exists r, o = r ++ old /\ nw = r ++ new /\ In o (keys d).
Proof.
  assert (T : forall r, take (length (r ++ old) - length old) (r ++ old) = r).
  { intros r. rewrite app_length. replace (length r + length old - length old) with (length r) by lia. apply take_app. }
  unfold postfix_map. rewrite in_map_iff. split.
  - intros (key & E & H). injection E as -> <-. apply filter_In in H. destruct H as [H S]. apply endswith_iff in S. destruct S as [r ->].
    exists r. rewrite T. auto.
  - intros (r & -> & -> & H). exists (r ++ old). rewrite T. split; [reflexivity|]. apply filter_In. split; [exact H|]. apply endswith_iff. exists r. reflexivity.
Qed.
Lemma NoDup_map_inj {A B} (f : A -> B) l : NoDup l -> (forall x y, In x l -> In y l -> f x = f y -> x = y) -> NoDup (map f l).
Proof.
  induction l as [|a l IH]; intros ND H; cbn; [constructor|]. inversion_clear ND as [|? ? N1 N2]. constructor.
  - intros K. apply in_map_iff in K. destruct K as (b & E & Hb). apply N1. rewrite (H a b); [exact Hb|left; reflexivity|right; exact Hb|congruence].
  - apply IH; [exact N2|]. intros x y Hx Hy. apply H; right; assumption.
Qed.

(** Prefix renaming moves exactly the entries whose key starts with the old prefix, provided no
    target key is taken by another entry. *)
Theorem C50_prefix : forall V (d : dict V) old new, NoDup (keys d) ->
  (forall r, In (old ++ r) (keys d) -> In (new ++ r) (keys d) -> old = new) ->
  exists d', rename_by_prefix old new d = Some d'
  /\ (forall r, In (old ++ r) (keys d) -> get d' (new ++ r) = get d (old ++ r))
  /\ (forall key, (forall r, key <> old ++ r) -> (forall r, In (old ++ r) (keys d) -> key <> new ++ r) -> get d' key = get d key)
  /\ (forall r, (forall r', In (old ++ r') (keys d) -> old ++ r <> new ++ r') -> get d' (old ++ r) = None).
Proof.
  intros V d old new ND HC. unfold rename_by_prefix. destruct (move_keys_ok (prefix_map old new d) d) as (d' & E & A & B & C).
  - unfold prefix_map. rewrite map_map. cbn [fst]. rewrite map_id. apply NoDup_filter. exact ND.
  - unfold prefix_map. rewrite map_map. cbn [snd]. apply NoDup_map_inj; [apply NoDup_filter; exact ND|].
    intros x y Hx Hy Hxy. apply filter_In in Hx, Hy. destruct Hx as [_ Hx], Hy as [_ Hy]. apply startswith_iff in Hx, Hy.
    destruct Hx as [r ->], Hy as [q ->]. rewrite !drop_app in Hxy. apply app_inj_l in Hxy. rewrite Hxy. reflexivity.
  - intros o nw H. apply prefix_map_in in H. destruct H as (r & -> & -> & H). apply get_in. exact H.
  - intros o nw H G. apply prefix_map_in in H. destruct H as (r & -> & -> & H). apply get_in in G. rewrite (HC r H G). reflexivity.
  - exists d'. repeat split; [exact E| | |].
    + intros r H. apply A. apply prefix_map_in. exists r. auto.
    + intros key K1 K2. apply B.
      * intros H. apply in_map_iff in H. destruct H as ([o nw] & <- & H). apply prefix_map_in in H. destruct H as (r & -> & _). apply (K1 r). reflexivity.
      * intros H. apply in_map_iff in H. destruct H as ([o nw] & <- & H). apply prefix_map_in in H. destruct H as (r & -> & -> & H). apply (K2 r H). reflexivity.
    + intros r K. destruct (in_dec string_dec (old ++ r) (keys d)) as [I|I].
      * apply C.
        -- apply in_map_iff. exists (old ++ r, new ++ r). split; [reflexivity|]. apply prefix_map_in. exists r. auto.
        -- intros H. apply in_map_iff in H. destruct H as ([o nw] & E' & H). apply prefix_map_in in H. destruct H as (q & -> & -> & H). apply (K q H). symmetry. exact E'.
      * rewrite B; [apply get_notin; exact I| |].
        -- intros H. apply in_map_iff in H. destruct H as ([o nw] & E' & H). cbn in E'. subst o. apply prefix_map_in in H. destruct H as (q & _ & _ & H). contradiction.
        -- intros H. apply in_map_iff in H. destruct H as ([o nw] & E' & H). apply prefix_map_in in H. destruct H as (q & -> & -> & H). apply (K q H). symmetry. exact E'.
Qed.

(** The same for postfixes. *)
Theorem C50_postfix : forall V (d : dict V) old new, NoDup (keys d) ->
  (forall r, In (r ++ old) (keys d) -> In (r ++ new) (keys d) -> old = new) ->
  exists d', rename_by_postfix old new d = Some d'
  /\ (forall r, In (r ++ old) (keys d) -> get d' (r ++ new) = get d (r ++ old))
  /\ (forall key, (forall r, key <> r ++ old) -> (forall r, In (r ++ old) (keys d) -> key <> r ++ new) -> get d' key = get d key)
  /\ (forall r, (forall r', In (r' ++ old) (keys d) -> r ++ old <> r' ++ new) -> get d' (r ++ old) = None).
Proof.
  intros V d old new ND HC. unfold rename_by_postfix.
  assert (T : forall r, take (length (r ++ old) - length old) (r ++ old) = r).
  { intros r. rewrite app_length. replace (length r + length old - length old) with (length r) by lia. apply take_app. }
  destruct (move_keys_ok (postfix_map old new d) d) as (d' & E & A & B & C).
  - unfold postfix_map. rewrite map_map. cbn [fst]. rewrite map_id. apply NoDup_filter. exact ND.
  - unfold postfix_map. rewrite map_map. cbn [snd]. apply NoDup_map_inj; [apply NoDup_filter; exact ND|].
    intros x y Hx Hy Hxy. apply filter_In in Hx, Hy. destruct Hx as [_ Hx], Hy as [_ Hy]. apply endswith_iff in Hx, Hy.
    destruct Hx as [r ->], Hy as [q ->]. rewrite !T in Hxy. apply app_inj_r in Hxy. rewrite Hxy. reflexivity.
  - intros o nw H. apply postfix_map_in in H. destruct H as (r & -> & -> & H). apply get_in. exact H.
  - intros o nw H G. apply postfix_map_in in H. destruct H as (r & -> & -> & H). apply get_in in G. rewrite (HC r H G). reflexivity.
  - exists d'. repeat split; [exact E| | |].
    + intros r H. apply A. apply postfix_map_in. exists r. auto.
    + intros key K1 K2. apply B.
      * intros H. apply in_map_iff in H. destruct H as ([o nw] & <- & H). apply postfix_map_in in H. destruct H as (r & -> & _). apply (K1 r). reflexivity.
      * intros H. apply in_map_iff in H. destruct H as ([o nw] & <- & H). apply postfix_map_in in H. destruct H as (r & -> & -> & H). apply (K2 r H). reflexivity.
    + intros r K. destruct (in_dec string_dec (r ++ old) (keys d)) as [I|I].
      * apply C.
        -- apply in_map_iff. exists (r ++ old, r ++ new). split; [reflexivity|]. apply postfix_map_in. exists r. auto.
        -- intros H. apply in_map_iff in H. destruct H as ([o nw] & E' & H). apply postfix_map_in in H. destruct H as (q & -> & -> & H). apply (K q H). symmetry. exact E'.
      * rewrite B; [apply get_notin; exact I| |].
        -- intros H. apply in_map_iff in H. destruct H as ([o nw] & E' & H). cbn in E'. subst o. apply postfix_map_in in H. destruct H as (q & _ & _ & H). contradiction.
        -- intros H. apply in_map_iff in H. destruct H as ([o nw] & E' & H). apply postfix_map_in in H. destruct H as (q & -> & -> & H). apply (K q H). symmetry. exact E'.
Qed.

(** A second pass finds nothing to do when no key has the old prefix any more. *)
Theorem C50_second_noop : forall V (d : dict V) old new, NoDup (keys d) ->
  (forall r, In (old ++ r) (keys d) -> In (new ++ r) (keys d) -> old = new) ->
  (forall r q, In (old ++ r) (keys d) -> new ++ r <> old ++ q) ->
  exists d', rename_by_prefix old new d = Some d' /\ rename_by_prefix old new d' = Some d'.
Proof.
  intros V d old new ND HC HN. destruct (C50_prefix V d old new ND HC) as (d' & E & A & B & C). exists d'. split; [exact E|].
  assert (P : prefix_map old new d' = []); [|unfold rename_by_prefix; rewrite P; reflexivity].
  unfold prefix_map. destruct (filter (fun key => startswith key old) (keys d')) as [|key l] eqn:F; [reflexivity|].
  exfalso. assert (In key (key :: l)) by (left; reflexivity). rewrite <- F in H. apply filter_In in H. destruct H as [H S].
  apply startswith_iff in S. destruct S as [r ->]. apply get_in in H. apply H. apply C. intros r' Hr E'. apply (HN r' r Hr). symmetry. exact E'.
Qed.

(** quant_layer.py L56-64: an activation checkpoint with 'act_quant_proxy.' keys loads as 'act_quant.'. *)
Theorem C50_act_quant : forall V (d : dict V) p, NoDup (keys d) ->
  (forall r, In (p ++ "act_quant_proxy" ++ r) (keys d) -> exists r', r = "." ++ r') ->
  (forall r, ~ In (p ++ "act_quant." ++ r) (keys d)) ->
  exists d', rename_by_prefix (p ++ "act_quant_proxy") (p ++ "act_quant") d = Some d'
  /\ (forall r v, get d (p ++ "act_quant_proxy." ++ r) = Some v -> get d' (p ++ "act_quant." ++ r) = Some v)
  /\ rename_by_prefix (p ++ "act_quant_proxy") (p ++ "act_quant") d' = Some d'.
Proof.
  intros V d p ND H1 H2.
  assert (X : forall r, In ((p ++ "act_quant_proxy") ++ r) (keys d) -> In ((p ++ "act_quant") ++ r) (keys d) -> p ++ "act_quant_proxy" = p ++ "act_quant").
  { intros r K1 K2. rewrite app_assoc_s in K1, K2. destruct (H1 r K1) as [r' ->]. exfalso. exact (H2 r' K2). }
  destruct (C50_second_noop V d _ _ ND X) as (d' & E & E').
  { intros r q K1 K2. rewrite app_assoc_s in K1. destruct (H1 r K1) as [r' ->]. rewrite !app_assoc_s in K2. apply app_inj_l in K2. cbn in K2. discriminate. }
  exists d'. split; [exact E|]. split; [|exact E'].
  intros r v G. destruct (C50_prefix V d _ _ ND X) as (d2 & E2 & A & _ & _). rewrite E in E2. injection E2 as <-.
  specialize (A ("." ++ r)). rewrite !app_assoc_s in A. cbn [append] in A, G |- *. rewrite A; [exact G|]. apply get_in. congruence.
Qed.

(** With a collision a value is lost. *)
Theorem C50_collision_refuted : exists (d d' : dict nat) old new, NoDup (keys d)
  /\ rename_by_prefix old new d = Some d' /\ get d "aab" = Some 2 /\ ~ In 2 (map snd d').
Proof.
  exists [("ab", 1); ("aab", 2)], [("aaab", 1)], "a", "aa". repeat split.
  - cbn. constructor; [cbn; intros [H|[]]; discriminate|]. constructor; [cbn; tauto|constructor].
  - vm_compute. intros [H|[]]. discriminate.
Qed.

Example C50_example : rename_by_prefix "m.act_quant_proxy" "m.act_quant" [("m.act_quant_proxy.scale", 1); ("m.weight", 2)]
  = Some [("m.weight", 2); ("m.act_quant.scale", 1)].
Proof. reflexivity. Qed.
Example C50_example_postfix : rename_by_postfix "conv.weight" "weight" [("a.conv.weight", 1); ("b", 2)] = Some [("b", 2); ("a.weight", 1)].
Proof. reflexivity. Qed.

(** ** C66: torch recurrent checkpoints loaded into a stack *)
Definition params : list string := ["weight_ih"; "weight_hh"; "bias_ih"; "bias_hh"].
(** torch.nn.RNNBase naming: param_l{k}{_reverse}. *)
Definition suffix (i : nat) (rv : bool) : string := "_l" ++ str_of i ++ (if rv then "_reverse" else "").
Definition torch_name (pfx param : string) (i : nat) (rv : bool) : string := pfx ++ param ++ suffix i rv.
Definition brevitas_name (pfx param : string) (i : nat) (rv : bool) : string :=
  pfx ++ "layers." ++ str_of i ++ (if rv then ".1." else ".0.") ++ param.
Definition plain_prefix (pfx : string) : Prop := (pfx = "" \/ exists p, pfx = p ++ ".") /\ contains "_l" pfx = false.

Lemma contains_prefix x rest : forall pfx, plain_prefix pfx -> contains ("_l" ++ x) (pfx ++ rest) = contains ("_l" ++ x) rest.
Proof.
  induction pfx as [|c pfx IH]; intros [H1 H2]; [reflexivity|].
  cbn [contains] in H2. apply orb_false_elim in H2. destruct H2 as [H2 H3].
  assert (PP : plain_prefix pfx).
  { split; [|exact H3]. destruct H1 as [H1|[p H1]]; [discriminate|]. destruct p as [|c' p]; cbn in H1; injection H1 as _ H1; [left; exact H1|right; exists p; exact H1]. }
  change ((String c pfx) ++ rest) with (String c (pfx ++ rest)). cbn [contains]. rewrite (IH PP).
  assert (S : startswith (String c (pfx ++ rest)) ("_l" ++ x) = false); [|rewrite S; reflexivity].
  destruct (startswith (String c (pfx ++ rest)) ("_l" ++ x)) eqn:S; [|reflexivity]. exfalso.
  apply startswith_iff in S. destruct S as [r S]. cbn in S. injection S as -> S.
  destruct pfx as [|c' pfx'].
  - destruct H1 as [H1|[p H1]]; [discriminate|]. destruct p as [|a [|b p]]; cbn in H1; discriminate.
  - cbn in S. injection S as -> S. assert (startswith (String "_" (String "l" pfx')) "_l" = true); [|congruence].
    apply startswith_iff. exists pfx'. reflexivity.
Qed.

Lemma cut_name pfx a b : cut (pfx ++ a ++ b) (length pfx) (length b) = a.
Proof.
  unfold cut. rewrite drop_app, !app_length. replace (length pfx + (length a + length b) - length b - length pfx) with (length a) by lia. apply take_app.
Qed.

(** The finite part: which layer patterns a torch parameter name matches. *)
Definition matches_ok (param : string) (i j : nat) (rv : bool) : bool :=
  Bool.eqb (contains ("_l" ++ str_of i ++ "_reverse") (param ++ suffix j rv)) (Nat.eqb i j && rv)
  && Bool.eqb (contains ("_l" ++ str_of i) (param ++ suffix j rv)) (Nat.eqb i j).
Lemma matches_all : forallb (fun param => forallb (fun i => forallb (fun j => matches_ok param i j true && matches_ok param i j false) (seq 0 10)) (seq 0 10)) params = true.
Proof. vm_compute. reflexivity. Qed.
Lemma matches param i j rv : In param params -> i < 10 -> j < 10 ->
  contains ("_l" ++ str_of i ++ "_reverse") (param ++ suffix j rv) = (Nat.eqb i j && rv)
  /\ contains ("_l" ++ str_of i) (param ++ suffix j rv) = Nat.eqb i j.
Proof.
  intros HP Hi Hj. pose proof matches_all as M. rewrite forallb_forall in M. specialize (M param HP).
  rewrite forallb_forall in M. specialize (M i ltac:(apply in_seq; lia)). rewrite forallb_forall in M. specialize (M j ltac:(apply in_seq; lia)).
  apply andb_prop in M. destruct M as [M1 M2].
  assert (MM : matches_ok param i j rv = true) by (destruct rv; assumption).
  unfold matches_ok in MM. apply andb_prop in MM. destruct MM as [A B]. apply eqb_prop in A, B. split; assumption.
Qed.

Section Stack.
  Context {V : Type}.
  Variable pfx : string.
  Hypothesis HP : plain_prefix pfx.

  Lemma indices_skip name (v : V) : forall l d, (forall i, In i l -> contains ("_l" ++ str_of i ++ "_reverse") name = false /\ contains ("_l" ++ str_of i) name = false) ->
    stack_indices pfx name v l d = Some d.
  Proof.
    induction l as [|i l IH]; intros d H; [reflexivity|]. cbn [stack_indices].
    destruct (H i (or_introl eq_refl)) as [H1 H2]. rewrite app_assoc_s, H1, H2. apply IH. intros j Hj. apply H. right. exact Hj.
  Qed.

  Lemma indices_torch param j rv (v : V) L d : In param params -> j < L -> L <= 10 -> get d (torch_name pfx param j rv) <> None ->
    stack_indices pfx (torch_name pfx param j rv) v (seq 0 L) d
      = Some (without (set d (brevitas_name pfx param j rv) v) (torch_name pfx param j rv)).
  Proof.
    intros Hparam Hj HL HG.
    assert (M : forall i, i < 10 -> contains ("_l" ++ str_of i ++ "_reverse") (torch_name pfx param j rv) = (Nat.eqb i j && rv)
      /\ contains ("_l" ++ str_of i) (torch_name pfx param j rv) = Nat.eqb i j).
    { intros i Hi. unfold torch_name. rewrite (contains_prefix (str_of i ++ "_reverse")), (contains_prefix (str_of i)) by exact HP. apply matches; [exact Hparam|exact Hi|lia]. }
    replace (seq 0 L) with (seq 0 j ++ j :: seq (S j) (L - S j))%list.
    2:{ replace L with (j + S (L - S j)) at 2 by lia. rewrite seq_app. cbn [seq]. rewrite Nat.add_0_l. reflexivity. }
    assert (SK : forall l1 l2 d0, (forall i, In i l1 -> i < 10 /\ i <> j) ->
      stack_indices pfx (torch_name pfx param j rv) v (l1 ++ l2)%list d0 = stack_indices pfx (torch_name pfx param j rv) v l2 d0).
    { induction l1 as [|i l1 IH]; intros l2 d0 HI; [reflexivity|]. cbn [app stack_indices]. rewrite app_assoc_s.
      destruct (HI i (or_introl eq_refl)) as [I1 I2]. destruct (M i I1) as [M1 M2]. rewrite M1, M2.
      destruct (Nat.eqb_spec i j) as [->|_]; [contradiction|]. cbn [andb]. apply IH. intros i' Hi'. apply HI. right. exact Hi'. }
    rewrite SK by (intros i Hi; apply in_seq in Hi; lia).
    cbn [stack_indices]. rewrite app_assoc_s. destruct (M j ltac:(lia)) as [M1 M2]. rewrite M1, M2, Nat.eqb_refl. cbn [andb].
    assert (PO : forall key, get (set d key v) (torch_name pfx param j rv) <> None).
    { intros key. destruct (string_dec key (torch_name pfx param j rv)) as [->|Ne]; [rewrite get_set_same; discriminate|]. rewrite get_set_other by exact Ne. exact HG. }
    assert (TL : forall d0, stack_indices pfx (torch_name pfx param j rv) v (seq (S j) (L - S j)) d0 = Some d0).
    { intros d0. rewrite <- (app_nil_r (seq (S j) (L - S j))). rewrite SK; [reflexivity|]. intros i Hi. apply in_seq in Hi. lia. }
    destruct rv.
    - change ("_l" ++ str_of j ++ "_reverse") with (suffix j true).
      assert (C : cut (torch_name pfx param j true) (length pfx) (length (suffix j true)) = param) by (unfold torch_name; apply cut_name).
      rewrite C. change (pfx ++ "layers." ++ str_of j ++ ".1." ++ param) with (brevitas_name pfx param j true).
      unfold pop. specialize (PO (brevitas_name pfx param j true)). destruct (get (set d (brevitas_name pfx param j true) v) (torch_name pfx param j true)); [apply TL|contradiction].
    - assert (SF : "_l" ++ str_of j = suffix j false) by (unfold suffix; rewrite app_nil_s; reflexivity).
      rewrite SF.
      assert (C : cut (torch_name pfx param j false) (length pfx) (length (suffix j false)) = param) by (unfold torch_name; apply cut_name).
      rewrite C. change (pfx ++ "layers." ++ str_of j ++ ".0." ++ param) with (brevitas_name pfx param j false).
      unfold pop. specialize (PO (brevitas_name pfx param j false)). destruct (get (set d (brevitas_name pfx param j false) v) (torch_name pfx param j false)); [apply TL|contradiction].
  Qed.

  (** Injectivity of the two naming schemes, over the finite parameter set. *)
  Lemma param_of_suffix : forall a b i j r q, In a params -> In b params -> i < 10 -> j < 10 ->
    torch_name pfx a i r = torch_name pfx b j q -> a = b /\ i = j /\ r = q.
  Proof.
    intros a b i j r q Ha Hb Hi Hj E. unfold torch_name in E. apply app_inj_l in E.
    destruct (matches a j i r Ha Hj Hi) as [M1 M2], (matches b j j q Hb Hj Hj) as [M3 M4]. rewrite <- E in M3, M4.
    rewrite M2 in M4. rewrite Nat.eqb_refl in M3, M4. apply Nat.eqb_eq in M4. subst i. rewrite M1, Nat.eqb_refl in M3. cbn [andb] in M3. subst q.
    split; [|auto]. apply app_inj_r in E. exact E.
  Qed.
  Definition bn_ok (a b : string) (i j : nat) (r q : bool) : bool :=
    negb (String.eqb (brevitas_name "" a i r) (brevitas_name "" b j q)) || (String.eqb a b && Nat.eqb i j && Bool.eqb r q).
  Definition bools := [true; false].
  Lemma bn_all : forallb (fun a => forallb (fun b => forallb (fun i => forallb (fun j => forallb (fun r => forallb (fun q => bn_ok a b i j r q) bools) bools) (seq 0 10)) (seq 0 10)) params) params = true.
  Proof. vm_compute. reflexivity. Qed.
  Lemma bn_inj a b i j r q : In a params -> In b params -> i < 10 -> j < 10 ->
    brevitas_name pfx a i r = brevitas_name pfx b j q -> a = b /\ i = j /\ r = q.
  Proof.
    intros Ha Hb Hi Hj E. unfold brevitas_name in E. apply app_inj_l in E. pose proof bn_all as M.
    rewrite forallb_forall in M; specialize (M a Ha). rewrite forallb_forall in M; specialize (M b Hb).
    rewrite forallb_forall in M; specialize (M i ltac:(apply in_seq; lia)). rewrite forallb_forall in M; specialize (M j ltac:(apply in_seq; lia)).
    rewrite forallb_forall in M; specialize (M r ltac:(destruct r; cbn; auto)). rewrite forallb_forall in M; specialize (M q ltac:(destruct q; cbn; auto)).
    unfold bn_ok in M. change (brevitas_name "" a i r) with ("layers." ++ str_of i ++ (if r then ".1." else ".0.") ++ a) in M.
    change (brevitas_name "" b j q) with ("layers." ++ str_of j ++ (if q then ".1." else ".0.") ++ b) in M. rewrite E, String.eqb_refl in M. cbn [negb orb] in M.
    apply andb_prop in M. destruct M as [M M3]. apply andb_prop in M. destruct M as [M1 M2].
    apply String.eqb_eq in M1. apply Nat.eqb_eq in M2. apply eqb_prop in M3. auto.
  Qed.
  Definition tb_ok (a b : string) (i j : nat) (r q : bool) : bool := negb (String.eqb (brevitas_name "" a i r) (torch_name "" b j q)).
  Lemma tb_all : forallb (fun a => forallb (fun b => forallb (fun i => forallb (fun j => forallb (fun r => forallb (fun q => tb_ok a b i j r q) bools) bools) (seq 0 10)) (seq 0 10)) params) params = true.
  Proof. vm_compute. reflexivity. Qed.
  Lemma tb_ne a b i j r q : In a params -> In b params -> i < 10 -> j < 10 -> brevitas_name pfx a i r <> torch_name pfx b j q.
  Proof.
    intros Ha Hb Hi Hj E. unfold brevitas_name, torch_name in E. apply app_inj_l in E. pose proof tb_all as M.
    rewrite forallb_forall in M; specialize (M a Ha). rewrite forallb_forall in M; specialize (M b Hb).
    rewrite forallb_forall in M; specialize (M i ltac:(apply in_seq; lia)). rewrite forallb_forall in M; specialize (M j ltac:(apply in_seq; lia)).
    rewrite forallb_forall in M; specialize (M r ltac:(destruct r; cbn; auto)). rewrite forallb_forall in M; specialize (M q ltac:(destruct q; cbn; auto)).
    unfold tb_ok in M. change (brevitas_name "" a i r) with ("layers." ++ str_of i ++ (if r then ".1." else ".0.") ++ a) in M.
    change (torch_name "" b j q) with (b ++ suffix j q) in M. rewrite E, String.eqb_refl in M. discriminate.
  Qed.

  Variable L : nat.
  Hypothesis HL : L <= 10.
  Definition is_torch (name : string) : Prop := exists param i rv, In param params /\ i < L /\ name = torch_name pfx param i rv.
  Definition other (name : string) : Prop := contains "_l" name = false.

  Lemma contains_weaken a b s : contains (a ++ b) s = true -> contains a s = true.
  Proof.
    induction s as [|c s IH]; cbn [contains]; rewrite ?orb_false_r.
    - intros H. apply startswith_iff in H. destruct H as [r H]. rewrite app_assoc_s in H. apply startswith_iff. eexists. exact H.
    - intros H. apply orb_true_iff in H. apply orb_true_iff. destruct H as [H|H]; [left|right; apply IH; exact H].
      apply startswith_iff in H. destruct H as [r H]. rewrite app_assoc_s in H. apply startswith_iff. eexists. exact H.
  Qed.
  Lemma other_skip name (v : V) d : other name -> stack_indices pfx name v (seq 0 L) d = Some d.
  Proof.
    intros H. apply indices_skip. intros i _. unfold other in H. split.
    - destruct (contains ("_l" ++ str_of i ++ "_reverse") name) eqn:E; [|reflexivity]. apply (contains_weaken "_l") in E. congruence.
    - destruct (contains ("_l" ++ str_of i) name) eqn:E; [|reflexivity]. apply (contains_weaken "_l") in E. congruence.
  Qed.

  Lemma stack_names_ok (items : list (string * V)) : forall d : dict V, NoDup (map fst items) -> (forall name, In name (map fst items) -> is_torch name \/ other name) ->
    (forall name, In name (map fst items) -> get d name <> None) ->
    exists d', stack_names pfx L items d = Some d'
    /\ (forall param i rv v, In param params -> i < L -> In (torch_name pfx param i rv, v) items -> get d' (brevitas_name pfx param i rv) = Some v)
    /\ (forall param i rv, In param params -> i < L -> In (torch_name pfx param i rv) (map fst items) -> get d' (torch_name pfx param i rv) = None)
    /\ (forall key, (forall param i rv, In param params -> i < L -> In (torch_name pfx param i rv) (map fst items) -> key <> torch_name pfx param i rv /\ key <> brevitas_name pfx param i rv) ->
          get d' key = get d key).
  Proof.
    induction items as [|[name v] items IH]; intros d ND HN HG.
    { exists d. split; [reflexivity|]. split; [intros; contradiction|]. split; [intros; contradiction|reflexivity]. }
    cbn [map fst] in *. inversion_clear ND as [|? ? N1 N2]. cbn [stack_names].
    destruct (HN name (or_introl eq_refl)) as [(param & i & rv & Hp & Hi & ->)|Ho].
    - rewrite indices_torch by (auto; apply HG; left; reflexivity).
      set (d1 := without (set d (brevitas_name pfx param i rv) v) (torch_name pfx param i rv)).
      assert (D1 : forall key, key <> torch_name pfx param i rv -> key <> brevitas_name pfx param i rv -> get d1 key = get d key).
      { intros key K1 K2. unfold d1. rewrite get_without_other, get_set_other by congruence. reflexivity. }
      assert (HT : forall p' i' r', In p' params -> i' < L -> torch_name pfx p' i' r' <> brevitas_name pfx param i rv).
      { intros p' i' r' P I E. apply (tb_ne param p' i i' rv r' Hp P ltac:(lia) ltac:(lia)). symmetry. exact E. }
      (* an "other" key is never the new name we set: it would have to be in the dictionary already *)
      destruct (IH d1 N2) as (d' & E & A & B & C).
      + intros n' H. apply HN. right. exact H.
      + intros n' H. destruct (string_dec n' (brevitas_name pfx param i rv)) as [->|Ne].
        * unfold d1. rewrite get_without_other by (apply HT; assumption). rewrite get_set_same. discriminate.
        * rewrite D1; [apply HG; right; exact H| |exact Ne]. intros ->. contradiction.
      + exists d'. split; [exact E|]. split; [|split].
        * intros p' i' r' v' P I H. destruct H as [H|H]; [|apply A; assumption].
          injection H as H <-. apply (param_of_suffix param p' i i' rv r' Hp P ltac:(lia) ltac:(lia)) in H. destruct H as (<- & <- & <-).
          rewrite C.
          -- unfold d1. rewrite get_without_other by (apply HT; assumption). apply get_set_same.
          -- intros p2 i2 r2 P2 I2 H2. split; [intros K; apply (HT p2 i2 r2 P2 I2); symmetry; exact K|]. intros K.
             apply (bn_inj param p2 i i2 rv r2 Hp P2 ltac:(lia) ltac:(lia)) in K. destruct K as (<- & <- & <-). contradiction.
        * intros p' i' r' P I H. destruct (in_dec string_dec (torch_name pfx p' i' r') (map fst items)) as [J|J]; [apply B; assumption|].
          destruct H as [H|H]; [|contradiction]. apply (param_of_suffix param p' i i' rv r' Hp P ltac:(lia) ltac:(lia)) in H. destruct H as (<- & <- & <-).
          rewrite C.
          -- unfold d1. apply get_without_same.
          -- intros p2 i2 r2 P2 I2 H2. split; [|apply not_eq_sym; intros K; apply (tb_ne p2 param i2 i r2 rv P2 Hp ltac:(lia) ltac:(lia)); exact K].
             intros K. rewrite <- K in H2. contradiction.
        * intros key K. destruct (K param i rv Hp Hi (or_introl eq_refl)) as [K1 K2]. rewrite C; [apply D1; assumption|].
          intros p2 i2 r2 P2 I2 H2. apply K; [exact P2|exact I2|right; exact H2].
    - rewrite other_skip by exact Ho. destruct (IH d N2) as (d' & E & A & B & C).
      + intros n' H. apply HN. right. exact H.
      + intros n' H. apply HG. right. exact H.
      + assert (NT : forall p' i' r', In p' params -> i' < L -> name <> torch_name pfx p' i' r').
        { intros p' i' r' P I ->. unfold other in Ho. destruct (matches p' i' i' r' P ltac:(lia) ltac:(lia)) as [_ M].
          rewrite Nat.eqb_refl in M. rewrite <- (contains_prefix (str_of i') _ pfx HP) in M. apply (contains_weaken "_l") in M. unfold torch_name in Ho. congruence. }
        exists d'. split; [exact E|]. split; [|split].
        * intros p' i' r' v' P I [H|H]; [|apply A; assumption]. injection H as H _. exfalso. exact (NT p' i' r' P I H).
        * intros p' i' r' P I [H|H]; [|apply B; assumption]. exfalso. exact (NT p' i' r' P I H).
        * intros key K. apply C. intros p' i' r' P I H. apply K; [exact P|exact I|right; exact H].
  Qed.
End Stack.

(** For stacks of at most ten layers every torch parameter ends up at its layer and direction,
    and all other entries stay. *)
Theorem C66_routing : forall V (d : dict V) pfx L, plain_prefix pfx -> L <= 10 -> NoDup (keys d) ->
  (forall name, In name (keys d) -> (exists param i rv, In param params /\ i < L /\ name = torch_name pfx param i rv) \/ contains "_l" name = false) ->
  exists d', stack_load pfx L d = Some d'
  /\ (forall param i rv v, In param params -> i < L -> get d (torch_name pfx param i rv) = Some v -> get d' (brevitas_name pfx param i rv) = Some v)
  /\ (forall param i rv, In param params -> i < L -> get d (torch_name pfx param i rv) <> None -> get d' (torch_name pfx param i rv) = None)
  /\ (forall key, contains "_l" key = false -> (forall param i rv, In param params -> i < L -> key <> brevitas_name pfx param i rv) -> get d' key = get d key).
Proof.
  intros V d pfx L HP HL ND HN. destruct (stack_names_ok pfx HP L HL d d ND HN) as (d' & E & A & B & C).
  { intros name H. apply get_in. exact H. }
  exists d'. split; [exact E|]. split; [|split].
  - intros param i rv v P I G. apply A; [exact P|exact I|].
    assert (In (torch_name pfx param i rv) (keys d)) by (apply get_in; congruence). apply in_map_iff in H. destruct H as ([k u] & K & H). cbn in K. subst k.
    rewrite (in_get d _ u ND H) in G. injection G as ->. exact H.
  - intros param i rv P I G. apply B; [exact P|exact I|]. apply get_in. exact G.
  - intros key K1 K2. apply C. intros param i rv P I H. split; [|apply K2; assumption]. intros ->.
    destruct (matches param i i rv P ltac:(lia) ltac:(lia)) as [_ M]. rewrite Nat.eqb_refl in M.
    rewrite <- (contains_prefix (str_of i) _ pfx HP) in M. apply (contains_weaken "_l") in M. unfold torch_name in K1. congruence.
Qed.

(** A checkpoint saved by the library itself (no '_l' in its keys) is left alone. *)
Theorem C66_own_checkpoint : forall V (d : dict V) pfx L, NoDup (keys d) -> (forall name, In name (keys d) -> contains "_l" name = false) -> stack_load pfx L d = Some d.
Proof.
  intros V d pfx L ND H. unfold stack_load. assert (G : forall items, (forall name, In name (map fst items) -> contains "_l" name = false) -> forall d0 : dict V, stack_names pfx L items d0 = Some d0).
  { induction items as [|[name v] items IH]; intros HN d0; [reflexivity|]. cbn [stack_names].
    rewrite other_skip by (apply HN; left; reflexivity). apply IH. intros n' Hn. apply HN. right. exact Hn. }
  apply G. exact H.
Qed.

(** Eleven layers or more: layer 10 also matches '_l1' and the second deletion fails. *)
Theorem C66_eleven_layers_refuted : forall m, stack_load "rnn." (11 + m) [("rnn.weight_ih_l10", 0)] = None.
Proof. intros m. reflexivity. Qed.

(** A module whose own name contains '_l0' cannot reload its own checkpoint. *)
Theorem C66_prefix_refuted : exists d', stack_load "enc_l0." 1 [("enc_l0.layers.0.0.gate_params.bias", 0)] = Some d'
  /\ get d' "enc_l0.layers.0.0.gate_params.bias" = None.
Proof. eexists. split; [reflexivity|reflexivity]. Qed.

Example C66_example : stack_load "rnn." 2 [("rnn.weight_ih_l0", 0); ("rnn.weight_ih_l0_reverse", 1); ("rnn.bias_hh_l1", 2)]
  = Some [("rnn.layers.0.0.weight_ih", 0); ("rnn.layers.0.1.weight_ih", 1); ("rnn.layers.1.0.bias_hh", 2)].
Proof. reflexivity. Qed.
Example C66_example_prefix : plain_prefix "rnn.".
Proof. split; [right; exists "rnn"; reflexivity|reflexivity]. Qed.

Print Assumptions C50_prefix.
Print Assumptions C50_postfix.
Print Assumptions C50_second_noop.
Print Assumptions C50_act_quant.
Print Assumptions C50_collision_refuted.
Print Assumptions C66_routing.
Print Assumptions C66_own_checkpoint.
Print Assumptions C66_eleven_layers_refuted.
Print Assumptions C66_prefix_refuted.
