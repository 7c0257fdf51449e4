(** Lemmas about policies. *)
From Coq Require Import Ascii String NArith ZArith Bool Lia Sorting Permutation List.
From Verif.Base Require Import Bytes BytesFacts Dec DecFacts.
From Verif.Model Require Import AggType Policy.
From Verif.Spec Require Import AggSpec PolicySpec.
From Verif.Proof Require Import AggProof.
Import ListNotations.
Open Scope Z_scope.

Lemma sp_eqb_eq a b : sp_eqb a b = true <-> a = b.
Proof.
  destruct a as [[w p] t], b as [[w' p'] t']; unfold sp_eqb, resolution_eqb; simpl.
  rewrite !andb_true_iff, !Z.eqb_eq; split; [intros [[-> ->] ->]|intros [= -> -> ->]]; auto.
Qed.

Lemma policy_eqb_eq a b : policy_eqb a b = true <-> a = b.
Proof.
  destruct a as [s i], b as [s' i']; unfold policy_eqb; simpl.
  rewrite andb_true_iff, sp_eqb_eq, N.eqb_eq; split; [intros [-> ->]|intros [= -> ->]]; auto.
Qed.

Lemma resolution_eqb_eq a b : resolution_eqb a b = true <-> a = b.
Proof.
  destruct a as [w p], b as [w' p']; unfold resolution_eqb; simpl.
  rewrite !andb_true_iff, !Z.eqb_eq; split; [intros [-> ->]|intros [= -> ->]]; auto.
Qed.

Lemma sp_less_spec a b :
  sp_less a b = true <->
  r_window (sp_resolution a) < r_window (sp_resolution b) \/
  (r_window (sp_resolution a) = r_window (sp_resolution b) /\
   (sp_retention b < sp_retention a \/
    (sp_retention a = sp_retention b /\
     r_precision (sp_resolution a) < r_precision (sp_resolution b)))).
Proof.
  unfold sp_less.
  destruct (Z.ltb_spec (r_window (sp_resolution a)) (r_window (sp_resolution b))); [split; auto|].
  destruct (Z.ltb_spec (r_window (sp_resolution b)) (r_window (sp_resolution a))); [split; [discriminate|lia]|].
  destruct (Z.ltb_spec (sp_retention b) (sp_retention a)); [split; auto; intros _; right; lia|].
  destruct (Z.ltb_spec (sp_retention a) (sp_retention b)); [split; [discriminate|lia]|].
  rewrite Z.ltb_lt; lia.
Qed.

Lemma sp_less_false a b : sp_less a b = false <-> ~ (sp_less a b = true).
Proof. symmetry; apply not_true_iff_false. Qed.

Lemma sp_less_total a b : sp_less a b = false -> sp_less b a = false -> a = b.
Proof.
  rewrite !sp_less_false, !sp_less_spec; intros H1 H2.
  destruct a as [[w p] t], b as [[w' p'] t']; simpl in *.
  f_equal; [f_equal|]; lia.
Qed.

Lemma sp_less_irrefl a : sp_less a a = false.
Proof. rewrite sp_less_false, sp_less_spec; lia. Qed.

Lemma sp_less_neg_trans a b c : sp_less b a = false -> sp_less c b = false -> sp_less c a = false.
Proof. rewrite !sp_less_false, !sp_less_spec; lia. Qed.

Lemma sp_less_asym a b : sp_less a b = true -> sp_less b a = false.
Proof. rewrite !sp_less_false, !sp_less_spec; lia. Qed.

Lemma sp_sort_sorts : sorts sp_less sp_sort.
Proof.
  intros l; split; [apply isort_perm|].
  eapply strongly_sorted_impl; [|apply isort_sorted].
  - simpl; intros x y H; now apply negb_true_iff in H.
  - intros x y; destruct (sp_less y x) eqn:E; auto. right.
    now rewrite (sp_less_asym _ _ E).
  - intros x y z H1 H2; apply negb_true_iff in H1, H2; apply negb_true_iff.
    eapply sp_less_neg_trans; eauto.
Qed.

Lemma sps_equal_perm sort a b :
  sorts sp_less sort -> (sps_equal_with sort a b = true <-> Permutation a b).
Proof.
  intros Hs; unfold sps_equal_with.
  destruct (Hs a) as [Pa Sa], (Hs b) as [Pb Sb].
  destruct (Nat.eqb_spec (length a) (length b)) as [Hl|Hl]; cbn [negb].
  - rewrite (list_eqb_spec sp_eqb sp_eqb_eq); split.
    + intros E; eapply Permutation_trans; [apply Pa|]. rewrite E; apply Permutation_sym, Pb.
    + intros P.
      apply (sorted_perm_unique (fun x y => negb (sp_less y x))).
      * intros x; now rewrite sp_less_irrefl.
      * intros x y _ _ H1 H2; apply negb_true_iff in H1, H2; now apply sp_less_total.
      * eapply strongly_sorted_impl; [|apply Sa]; simpl; intros x y ->; auto.
      * eapply strongly_sorted_impl; [|apply Sb]; simpl; intros x y ->; auto.
      * eapply Permutation_trans; [apply Permutation_sym, Pa|]. eapply Permutation_trans; [apply P|apply Pb].
  - split; [discriminate|]. intros P; apply Permutation_length in P; congruence.
Qed.

Lemma sps_equal_perm_model a b : sps_equal a b = true <-> Permutation a b.
Proof. apply sps_equal_perm, sp_sort_sorts. Qed.

(** * Units *)
Lemma unit_cases (P : Z -> Prop) :
  Forall P [1; 2; 3; 4; 5; 6; 7; 8] -> forall u, valid_precision u -> P u.
Proof.
  intros H u Hu; unfold valid_precision in Hu; rewrite Forall_forall in H; apply H.
  simpl; lia.
Qed.

Lemma unit_value_valid u : valid_precision u -> exists d, unit_value u = Some d /\ unit_from_duration d = Some u.
Proof.
  revert u; apply unit_cases.
  repeat (constructor; [eexists; split; vm_compute; reflexivity|]); constructor.
Qed.

Lemma find_none_fst {A C} (l : list (A * C)) f : find f l = None <-> Forall (fun p => f p = false) l.
Proof.
  induction l as [|p l IH]; simpl; [split; auto|].
  destruct (f p) eqn:E; split; intros H; try discriminate; auto.
  - inversion H; congruence.
  - constructor; auto; now apply IH.
  - inversion H; now apply IH.
Qed.

Lemma unit_value_invalid u : ~ valid_precision u -> unit_value u = None.
Proof.
  unfold valid_precision; intros H; unfold unit_value.
  rewrite (proj2 (find_none_fst unit_table _)); auto.
  unfold unit_table; repeat (constructor; [apply Z.eqb_neq; cbn [fst]; lia|]); constructor.
Qed.

Lemma unit_from_duration_valid d u : unit_from_duration d = Some u -> valid_precision u /\ unit_value u = Some d.
Proof.
  unfold unit_from_duration; destruct (find _ _) as [[u' d']|] eqn:E; simpl; [|discriminate].
  intros [= ->]; apply find_some in E; destruct E as [Hin Heq]; cbn [snd] in Heq.
  apply Z.eqb_eq in Heq; subst d'.
  assert (Hall : forallb (fun p => (1 <=? fst p) && (fst p <=? 8) &&
     match unit_value (fst p) with Some v => v =? snd p | None => false end) unit_table = true)
    by (vm_compute; reflexivity).
  rewrite forallb_forall in Hall; specialize (Hall _ Hin); cbn [fst snd] in Hall.
  rewrite !andb_true_iff, !Z.leb_le in Hall; destruct Hall as [[H1 H2] H3].
  split; [unfold valid_precision; lia|].
  destruct (unit_value u) as [v|]; [|discriminate]. apply Z.eqb_eq in H3; now subst.
Qed.

(** * Protobuf *)
Definition sp_valid (p : storage_policy) : Prop := valid_precision (r_precision (sp_resolution p)).

Lemma sp_to_proto_valid p old :
  sp_valid p -> exists d, unit_value (r_precision (sp_resolution p)) = Some d /\
    unit_from_duration d = Some (r_precision (sp_resolution p)) /\
    sp_to_proto p old =
      ({| spp_resolution := Some {| rp_window := r_window (sp_resolution p); rp_precision := d |};
          spp_retention := Some (sp_retention p) |}, false).
Proof.
  intros H; destruct (unit_value_valid _ H) as (d & Hd & Hu); exists d; repeat split; auto.
  unfold sp_to_proto, resolution_to_proto; now rewrite Hd.
Qed.

Lemma sp_proto_roundtrip p old_pb old :
  sp_valid p -> exists pb, sp_to_proto p old_pb = (pb, false) /\ sp_from_proto old pb = (p, false).
Proof.
  intros H; destruct (sp_to_proto_valid p old_pb H) as (d & Hd & Hu & E).
  eexists; split; [exact E|]. unfold sp_from_proto, resolution_from_proto; simpl; rewrite Hu.
  destruct p as [[w q] t]; reflexivity.
Qed.

Lemma sp_to_proto_invalid p old : ~ sp_valid p -> snd (sp_to_proto p old) = true.
Proof. intros H; unfold sp_to_proto, resolution_to_proto; now rewrite (unit_value_invalid _ H). Qed.

Lemma sp_from_proto_err_iff old pb :
  snd (sp_from_proto old pb) = true <->
  (spp_resolution pb = None \/ spp_retention pb = None \/
   exists r, spp_resolution pb = Some r /\ unit_from_duration (rp_precision r) = None).
Proof.
  unfold sp_from_proto, resolution_from_proto.
  destruct (spp_resolution pb) as [r|]; simpl; [|tauto].
  destruct (unit_from_duration (rp_precision r)) eqn:E; simpl.
  - destruct (spp_retention pb); simpl; split; auto; try discriminate.
    intros [H|[H|(r' & [= <-] & H)]]; congruence.
  - split; auto; intros _; right; right; eauto.
Qed.

(** A value read from protobuf always has a valid precision. *)
Lemma sp_from_proto_valid old pb p : sp_from_proto old pb = (p, false) -> sp_valid p.
Proof.
  unfold sp_from_proto, resolution_from_proto.
  destruct (spp_resolution pb) as [r|]; [|discriminate].
  destruct (unit_from_duration (rp_precision r)) eqn:E; [|discriminate].
  destruct (spp_retention pb); [|discriminate]. intros [= <-].
  now apply unit_from_duration_valid in E.
Qed.

Lemma sp_proto_some p : sp_valid p -> exists pb, sp_proto p = Some pb /\ new_sp_from_proto (Some pb) = Some p.
Proof.
  intros H; destruct (sp_proto_roundtrip p empty_sp_pb empty_storage_policy H) as (pb & E1 & E2).
  exists pb; unfold sp_proto, new_sp_from_proto; now rewrite E1, E2.
Qed.

Lemma sp_proto_none p : ~ sp_valid p -> sp_proto p = None.
Proof.
  intros H; apply (sp_to_proto_invalid _ empty_sp_pb) in H; unfold sp_proto.
  destruct (sp_to_proto p empty_sp_pb); simpl in *; now subst.
Qed.

Lemma sp_valid_dec p : sp_valid p \/ ~ sp_valid p.
Proof. unfold sp_valid, valid_precision; lia. Qed.

Lemma sps_proto_roundtrip l :
  Forall sp_valid l ->
  exists pbs, sps_proto l = Some pbs /\ new_sps_from_proto (map Some pbs) = Some l.
Proof.
  induction 1 as [|p l Hp _ (pbs & E1 & E2)]; simpl.
  - exists []; auto.
  - destruct (sp_proto_some p Hp) as (pb & E3 & E4); exists (pb :: pbs); unfold sps_proto, new_sps_from_proto in *.
    cbn [map_opt map]; rewrite E3, E1, E4, E2; auto.
Qed.

Lemma policy_proto_roundtrip p :
  sp_valid (p_storage p) -> is_word (p_agg p) -> (exists l, decompress (p_agg p) = (l, false)) ->
  exists pb, policy_proto p = Some pb /\ new_policy_from_proto (Some pb) = Some p.
Proof.
  intros Hv Hw (l & El); unfold policy_proto.
  destruct (sp_proto_some _ Hv) as (spb & E1 & E2); rewrite E1, El.
  destruct (decompress_compress 0 _ _ Hw El) as (_ & Hvt & Hc).
  rewrite types_proto_ok by auto. eexists; split; eauto.
  unfold new_policy_from_proto; cbn [pp_storage pp_types]; rewrite E2.
  unfold id_from_proto_types.
  rewrite (proj2 (types_from_proto_some l l)) by auto.
  unfold compress_types; rewrite Hc; destruct p; reflexivity.
Qed.

Lemma policy_proto_none p :
  is_word (p_agg p) ->
  (policy_proto p = None <-> (~ sp_valid (p_storage p) \/ snd (decompress (p_agg p)) = true)).
Proof.
  intros Hw; unfold policy_proto; destruct (sp_valid_dec (p_storage p)) as [Hv|Hv].
  - destruct (sp_proto_some _ Hv) as (spb & -> & _).
    destruct (decompress (p_agg p)) as [ts [|]] eqn:E; simpl; [tauto|].
    destruct (decompress_compress 0 _ _ Hw E) as (_ & Hvt & _).
    rewrite types_proto_ok by auto. split; [discriminate|]. intros [?|?]; [tauto|discriminate].
  - rewrite sp_proto_none by auto; tauto.
Qed.

(** * Text *)
Lemma not_in_app {A} (x : A) l1 l2 : ~ In x l1 -> ~ In x l2 -> ~ In x (l1 ++ l2).
Proof. intros H1 H2 H; apply in_app_iff in H; tauto. Qed.

Section Text.
  Context (dt : duration_text) (ok : duration_text_ok dt).

  Lemma print_no_at d : ~ In at_sep (dt_print dt d).
  Proof. intros H; now apply (dt_print_seps dt ok) in H. Qed.
  Lemma print_no_colon d : ~ In colon_sep (dt_print dt d).
  Proof. intros H; now apply (dt_print_seps dt ok) in H. Qed.
  Lemma print_no_bar d : ~ In bar_sep (dt_print dt d).
  Proof. intros H; now apply (dt_print_seps dt ok) in H. Qed.

  Lemma parse_resolution_string r :
    valid_precision (r_precision r) -> parse_resolution dt (resolution_string dt r) = Some r.
  Proof.
    intros Hv; unfold resolution_string, parse_resolution.
    destruct (Z.eqb_spec (dt_max_unit dt (r_window r)) (r_precision r)) as [E|E].
    - rewrite (proj2 (index_byte_none _ _) (print_no_at _)), (dt_print_parse dt ok), E.
      destruct r; reflexivity.
    - rewrite index_byte_app by apply print_no_at.
      rewrite firstn_app, firstn_all, Nat.sub_diag; cbn [firstn]; rewrite app_nil_r.
      rewrite skipn_app, skipn_all2 by lia.
      replace (S (length (dt_print dt (r_window r))) - length (dt_print dt (r_window r)))%nat with 1%nat by lia.
      cbn [app skipn]. rewrite (dt_print_parse dt ok).
      change ("1"%char :: dt_unit_string dt (r_precision r)) with (B "1" ++ dt_unit_string dt (r_precision r)).
      rewrite (dt_unit_parse dt ok) by auto.
      destruct (unit_value_valid _ Hv) as (d & -> & ->). destruct r; reflexivity.
  Qed.

  Lemma resolution_string_no c r :
    valid_precision (r_precision r) -> (c = colon_sep \/ c = bar_sep) -> ~ In c (resolution_string dt r).
  Proof.
    intros Hv Hc; unfold resolution_string.
    assert (Hp : ~ In c (dt_print dt (r_window r))) by (destruct Hc; subst; [apply print_no_colon|apply print_no_bar]).
    destruct (_ =? _); auto. apply not_in_app; auto.
    simpl; intros [H|[H|H]].
    - destruct Hc; subst; discriminate.
    - destruct Hc; subst; discriminate.
    - apply (dt_unit_seps dt ok) in H; auto. destruct Hc; subst; tauto.
  Qed.

  Lemma parse_sp_string p : sp_valid p -> parse_sp dt (sp_string dt p) = Some p.
  Proof.
    intros Hv; unfold parse_sp, sp_string.
    rewrite split_on_app by (apply resolution_string_no; auto).
    rewrite split_on_no_sep by apply print_no_colon.
    rewrite parse_resolution_string by auto. rewrite (dt_print_parse dt ok). destruct p; reflexivity.
  Qed.

  Lemma sp_string_no_bar p : sp_valid p -> ~ In bar_sep (sp_string dt p).
  Proof.
    intros Hv; unfold sp_string; apply not_in_app; [apply resolution_string_no; auto|].
    simpl; intros [H|H]; [discriminate|now apply print_no_bar in H].
  Qed.

  Lemma types_string_no_bar ts : Forall valid_type ts -> ~ In bar_sep (types_string ts).
  Proof.
    unfold types_string; induction 1 as [|t ts Ht Hts IH]; simpl; [tauto|].
    assert (Hb : ~ In bar_sep (type_string t)).
    { revert t Ht; apply valid_type_cases, Forall_forall.
      repeat (constructor; [vm_compute; intuition discriminate|]); constructor. }
    destruct ts as [|u ts]; simpl in *; auto.
    apply not_in_app; auto. intros [H|H]; [discriminate|auto].
  Qed.

  Lemma parse_policy_string p :
    sp_valid (p_storage p) -> is_word (p_agg p) -> (exists l, decompress (p_agg p) = (l, false)) ->
    exists s, policy_string dt p = Some s /\ parse_policy dt s = Some p.
  Proof.
    intros Hv Hw (l & El); unfold policy_string.
    destruct (id_is_default (p_agg p)) eqn:D.
    - eexists; split; [reflexivity|]. unfold parse_policy.
      rewrite split_on_no_sep by now apply sp_string_no_bar.
      rewrite parse_sp_string by auto.
      unfold id_is_default in D; apply N.eqb_eq in D; rewrite <- D; destruct p; reflexivity.
    - unfold id_string; rewrite El. eexists; split; [reflexivity|]. unfold parse_policy.
      destruct (decompress_compress 0 _ _ Hw El) as (_ & Hvt & Hc).
      rewrite split_on_app by now apply sp_string_no_bar.
      rewrite split_on_no_sep by now apply types_string_no_bar.
      rewrite parse_sp_string by auto.
      rewrite parse_types_string; auto.
      + unfold compress_types; rewrite Hc; destruct p; reflexivity.
      + intros ->. destruct (compressor_valid 0 [] (Forall_nil _)) as (w & Ew & Hb).
        rewrite Ew in Hc; simpl in Hc. injection Hc as Hc. subst w.
        unfold id_is_default in D; apply N.eqb_neq in D; apply D, N.bits_inj; intros k.
        unfold default_id; rewrite N.bits_0. destruct (N.testbit (p_agg p) k) eqn:Ek; auto.
        apply Hb in Ek; destruct Ek.
  Qed.
End Text.

Lemma parse_sp_shape dt s p :
  parse_sp dt s = Some p ->
  exists a b, s = a ++ colon_sep :: b /\ ~ In colon_sep a /\ ~ In colon_sep b /\
    parse_resolution dt a = Some (sp_resolution p) /\ dt_parse dt b = Some (sp_retention p).
Proof.
  unfold parse_sp; intros H.
  pose proof (join_split colon_sep s) as J; pose proof (split_on_pieces colon_sep s) as Pc.
  destruct (split_on colon_sep s) as [|a [|b [|c l]]]; try discriminate.
  destruct (parse_resolution dt a) eqn:Ea; [|discriminate]. destruct (dt_parse dt b) eqn:Eb; [|discriminate].
  injection H as <-; exists a, b; simpl in J.
  inversion Pc as [|? ? Pa Pc2]; inversion Pc2 as [|? ? Pb _]; subst; auto.
Qed.

Lemma parse_policy_shape dt s p :
  parse_policy dt s = Some p ->
  (~ In bar_sep s /\ parse_sp dt s = Some (p_storage p) /\ p_agg p = default_id) \/
  (exists a b ts, s = a ++ bar_sep :: b /\ ~ In bar_sep a /\ ~ In bar_sep b /\
     parse_sp dt a = Some (p_storage p) /\ parse_types b = Some ts /\ compress_types ts = (p_agg p, false)).
Proof.
  unfold parse_policy; intros H.
  pose proof (join_split bar_sep s) as J; pose proof (split_on_pieces bar_sep s) as Pc.
  destruct (split_on bar_sep s) as [|a [|b [|c l]]]; try discriminate; simpl in J.
  - left; subst s. inversion Pc; subst. destruct (parse_sp dt a); [|discriminate].
    injection H as <-; auto.
  - right; destruct (parse_sp dt a) eqn:Ea; [|discriminate].
    destruct (parse_types b) as [ts|] eqn:Eb; [|discriminate].
    destruct (compress_types ts) as [id [|]] eqn:Ec; [discriminate|]. injection H as <-.
    inversion Pc as [|? ? Pa Pc2]; inversion Pc2 as [|? ? Pb _]; subst.
    exists a, b, ts; auto 8.
Qed.

(** The simple duration functions satisfy the requirements. *)
Lemma take_digits_app ds u :
  Forall (fun c => is_digit c = true) ds -> (forall c, hd_error u = Some c -> is_digit c = false) ->
  take_digits (ds ++ u) = (ds, u).
Proof.
  induction 1 as [|c ds Hc _ IH]; intros Hu; simpl.
  - destruct u as [|c u]; simpl; auto. now rewrite (Hu c eq_refl).
  - now rewrite Hc, IH.
Qed.

Lemma simple_parse_pos_spec n k v :
  valid_precision k -> unit_value k = Some v ->
  simple_parse_pos (dec n ++ simple_unit_string k) = Some (Z.of_N n * v).
Proof.
  intros Hk Hv; unfold simple_parse_pos; rewrite take_digits_app.
  - rewrite undec_dec.
    assert (Hf : find (fun k' => beqb (simple_unit_string k') (simple_unit_string k)) [1; 2; 3; 4; 5; 6; 7; 8] = Some k).
    { clear Hv; revert k Hk. apply unit_cases.
      repeat (constructor; [vm_compute; reflexivity|]); constructor. }
    rewrite Hf, Hv; reflexivity.
  - apply dec_digits.
  - clear Hv; revert k Hk.
    apply (unit_cases (fun k => forall c, hd_error (simple_unit_string k) = Some c -> is_digit c = false)).
    repeat (constructor; [intros c; simpl; intros [= <-]; reflexivity|]); constructor.
Qed.

Lemma is_digit_not_sep c : is_digit c = true ->
  c <> at_sep /\ c <> colon_sep /\ c <> bar_sep /\ c <> "-"%char.
Proof. intros H; repeat split; intros ->; discriminate. Qed.

Lemma simple_duration_text_ok : duration_text_ok simple_duration_text.
Proof.
  constructor.
  - intros d; cbn [simple_duration_text dt_parse dt_print].
    assert (Hpos : forall n, simple_parse_pos (dec n ++ B "ns") = Some (Z.of_N n)).
    { intros n. change (B "ns") with (simple_unit_string 4).
      rewrite (simple_parse_pos_spec n 4 1); [f_equal; lia|unfold valid_precision; lia|reflexivity]. }
    destruct (Z.ltb_spec d 0) as [Hd|Hd].
    + change (B "-" ++ dec (Z.to_N (Z.abs d)) ++ B "ns") with ("-"%char :: (dec (Z.to_N (Z.abs d)) ++ B "ns")).
      cbv beta iota. rewrite Hpos; cbn [option_map]; f_equal; lia.
    + rewrite app_nil_l. specialize (Hpos (Z.to_N (Z.abs d))).
      pose proof (dec_digits (Z.to_N (Z.abs d))) as Hdig.
      destruct (dec (Z.to_N (Z.abs d))) as [|c ds] eqn:E; [now apply dec_nonempty in E|].
      inversion Hdig as [|? ? Hc _]; subst.
      apply is_digit_not_sep in Hc; destruct Hc as (_ & _ & _ & Hc).
      cbn [app] in *.
      assert (Hm : forall (x y : option Z), match c with "-"%char => x | _ => y end = y).
      { intros x y. destruct c as [[] [] [] [] [] [] [] []]; try reflexivity. congruence. }
      etransitivity; [apply Hm|]. rewrite Hpos; f_equal; lia.
  - intros u Hu. destruct (unit_value_valid _ Hu) as (d & Hd & _). rewrite Hd.
    change (B "1") with (dec 1). simpl dt_unit_string.
    pose proof (simple_parse_pos_spec 1 u d Hu Hd) as Hp.
    cbv [simple_duration_text dt_parse]. etransitivity; [|etransitivity; [exact Hp|f_equal; lia]].
    reflexivity.
  - intros d c Hin. cbn [simple_duration_text dt_print] in Hin.
    apply in_app_iff in Hin; destruct Hin as [Hin|Hin].
    + destruct (d <? 0); simpl in Hin; [|tauto]. destruct Hin as [<-|[]]; repeat split; discriminate.
    + apply in_app_iff in Hin; destruct Hin as [Hin|Hin].
      * pose proof (dec_digits (Z.to_N (Z.abs d))) as Hdig; rewrite Forall_forall in Hdig.
        apply Hdig, is_digit_not_sep in Hin; tauto.
      * simpl in Hin; destruct Hin as [<-|[<-|[]]]; repeat split; discriminate.
  - intros u c Hu. revert u Hu.
    apply (unit_cases (fun u => In c (simple_unit_string u) -> c <> colon_sep /\ c <> bar_sep)).
    repeat (constructor; [simpl; intros Hin; repeat destruct Hin as [<-|Hin]; try tauto; split; discriminate|]);
      constructor.
Qed.

(** * Drop policies *)
Lemma parse_drop_string p : drop_is_valid p = true <-> parse_drop_policy (drop_string p) = Some p.
Proof.
  unfold drop_is_valid, valid_drop_policies; cbn [existsb].
  rewrite !orb_true_iff, !Z.eqb_eq; split.
  - intros [<-|[<-|[<-|H]]]; [vm_compute; reflexivity..|discriminate].
  - intros H; apply find_some in H; destruct H as [H _]; simpl in H; tauto.
Qed.

Lemma parse_drop_policy_inv s p :
  parse_drop_policy s = Some p -> drop_is_valid p = true /\ s = drop_string p.
Proof.
  intros H; apply find_some in H; destruct H as [Hin Heq]; apply beqb_eq in Heq; split; auto.
  unfold drop_is_valid; apply existsb_exists; exists p; split; auto; apply Z.eqb_refl.
Qed.

(** * Known values *)
Lemma known_resolution_roundtrip v r : resolution_of_value v = Some r <-> value_of_resolution r = Some v.
Proof.
  unfold resolution_of_value, value_of_resolution; split; intros H.
  - destruct (find _ _) as [[v' r']|] eqn:E; [|discriminate]; simpl in H; injection H as ->.
    apply find_some in E; destruct E as [Hin Heq]; cbn [fst] in Heq; apply Z.eqb_eq in Heq; subst v'.
    simpl in Hin; repeat destruct Hin as [[= <- <-]|Hin]; try (vm_compute; reflexivity); tauto.
  - destruct (find _ _) as [[v' r']|] eqn:E; [|discriminate]; simpl in H; injection H as ->.
    apply find_some in E; destruct E as [Hin Heq]; cbn [snd] in Heq; apply resolution_eqb_eq in Heq; subst r'.
    simpl in Hin; repeat destruct Hin as [[= <- <-]|Hin]; try (vm_compute; reflexivity); tauto.
Qed.

Lemma known_retention_roundtrip v r : retention_of_value v = Some r <-> value_of_retention r = Some v.
Proof.
  unfold retention_of_value, value_of_retention; split; intros H.
  - destruct (find _ _) as [[v' r']|] eqn:E; [|discriminate]; simpl in H; injection H as ->.
    apply find_some in E; destruct E as [Hin Heq]; cbn [fst] in Heq; apply Z.eqb_eq in Heq; subst v'.
    simpl in Hin; repeat destruct Hin as [[= <- <-]|Hin]; try (vm_compute; reflexivity); tauto.
  - destruct (find _ _) as [[v' r']|] eqn:E; [|discriminate]; simpl in H; injection H as ->.
    apply find_some in E; destruct E as [Hin Heq]; cbn [snd] in Heq; apply Z.eqb_eq in Heq; subst r'.
    simpl in Hin; repeat destruct Hin as [[= <- <-]|Hin]; try (vm_compute; reflexivity); tauto.
Qed.

(** * Staged policies *)
Lemma stp_equals_eq a b : stp_equals a b = true <-> a = b.
Proof.
  destruct a as [c t ps], b as [c' t' ps']; unfold stp_equals; simpl.
  destruct (Z.eqb_spec c c') as [->|Hc]; simpl; [|split; [discriminate|congruence]].
  destruct (Bool.eqb_spec t t') as [->|Ht]; simpl; [|split; [discriminate|congruence]].
  destruct ps as [|p ps], ps' as [|p' ps']; simpl.
  - tauto.
  - split; [discriminate|congruence].
  - split; [discriminate|congruence].
  - change (policy_eqb p p' && list_eqb policy_eqb ps ps') with (list_eqb policy_eqb (p :: ps) (p' :: ps')).
    rewrite (list_eqb_spec policy_eqb policy_eqb_eq); split; congruence.
Qed.
