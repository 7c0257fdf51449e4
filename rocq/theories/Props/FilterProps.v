(** Properties of filters, tag filters and metric IDs.  Each theorem is stated with
    the vocabulary of [Spec/FilterSpec.v]. *)
From Coq Require Import Ascii String Arith NArith Bool Lia Permutation Sorting.Sorted List.
From Verif.Base Require Import Bytes BytesFacts.
From Verif.Model Require Import Filter MetricID.
From Verif.Spec Require Import FilterSpec.
From Verif.Proof Require Import FilterProof TagProof.
Import ListNotations.

(** Closes closed well-formedness goals in the examples. *)
Ltac closed_wf :=
  cbn [pattern_wf glob_wf items_wf item_wf unambiguous unambiguous_glob unambiguous_item fst snd];
  unfold items_wf;
  repeat match goal with
         | |- _ /\ _ => split
         | |- Forall _ [] => apply Forall_nil
         | |- Forall _ (_ :: _) => apply Forall_cons; [cbn [item_wf unambiguous_item]|]
         | |- _ <> _ => discriminate
         | |- True => exact I
         | |- forall _, show_glob _ <> _ => intros ? HH; discriminate HH
         | |- true = false -> _ => discriminate
         | |- (_ <= _)%N => vm_compute; discriminate
         | |- ~ In _ _ => simpl; intuition discriminate
         end.

(** ** C11: filter patterns mean what the glob language says *)

(** A pattern compiles exactly when it is the text of a well-formed pattern. *)
Theorem C11_grammar p :
  (exists f, new_filter p = Some f) <-> exists g, pattern_wf g /\ show g = p.
Proof.
  split.
  - intros (f & H). eapply new_filter_sound; eauto.
  - intros (g & Hg & <-). destruct (new_filter_complete g Hg) as (f & H & _); eauto.
Qed.
Print Assumptions C11_grammar.

(** The full claim, [matches f v = true <-> pattern_lang g v] for every
    well-formed [g] and every [v], fails in two ways. *)
Theorem C11_glob_refuted :
  (exists g f v, pattern_wf g /\ unambiguous g /\ new_filter (show g) = Some f /\
     matches f v = true /\ ~ pattern_lang g v) /\
  (exists g f v, pattern_wf g /\ long_enough g v /\ new_filter (show g) = Some f /\
     matches f v = false /\ pattern_lang g v).
Proof.
  split.
  - (* "ab*bc" matches "abc" *)
    exists (Plain (Around [Lit "a"; Lit "b"] [Lit "b"; Lit "c"]%char)), 
      (FMulti [FChain [CEqual (B "ab")] Start false; FChain [CEqual (B "bc")] End true] Conjunction), (B "abc").
    split; [|split; [|split; [|split]]]; try reflexivity.
    + closed_wf.
    + closed_wf.
    + intros H; inversion H as [| | | |s t u m w Hu Hw E1 E2|]; subst.
      change [Lit "a"; Lit "b"]%char with (map Lit (B "ab")) in Hu.
      change [Lit "b"; Lit "c"]%char with (map Lit (B "bc")) in Hw.
      apply items_lang_lits in Hu, Hw; subst. discriminate E2 || (apply (f_equal (@length ascii)) in E2;
        rewrite !app_length in E2; simpl in E2; lia).
  - (* "{a,ab}c" does not match "abc" *)
    exists (Plain (Exact [Alternatives [B "a"; B "ab"]; Lit "c"%char])),
      (FChain [CAlts [B "a"; B "ab"]; CEqual (B "c")] Middle false), (B "abc").
    split; [|split; [|split; [|split]]]; try reflexivity.
    + closed_wf.
    + constructor. change (B "abc") with (B "ab" ++ B "c" ++ []).
      apply SL_cons; [constructor; simpl; auto|]. apply SL_cons; constructor.
Qed.
Print Assumptions C11_glob_refuted.

(** Outside these two cases the filter matches exactly the language: the
    alternatives need no backtracking, and the value is long enough for the two
    sides of an inner wildcard not to overlap. *)
Theorem C11_glob_partial g f v :
  pattern_wf g -> new_filter (show g) = Some f ->
  unambiguous g -> long_enough g v ->
  matches f v = true <-> pattern_lang g v.
Proof.
  intros Hg Hf Hun Hl. rewrite <- pattern_overlap_lang by auto.
  destruct (new_filter_complete g Hg) as (f' & E & _ & _ & _ & H).
  assert (f' = f) as <- by congruence. now apply H.
Qed.
Print Assumptions C11_glob_partial.

(** On every value: an inner wildcard means "starts with" and "ends with". *)
Theorem C11_glob_overlap g f v :
  pattern_wf g -> new_filter (show g) = Some f -> unambiguous g ->
  matches f v = true <-> pattern_lang_overlap g v.
Proof.
  intros Hg Hf Hun. destruct (new_filter_complete g Hg) as (f' & E & _ & _ & _ & H).
  assert (f' = f) as <- by congruence. now apply H.
Qed.
Print Assumptions C11_glob_overlap.

(** Whatever the alternatives, a pattern without negation never matches a value
    outside its language, and one with negation matches every value outside the
    language of what it negates. *)
Theorem C11_glob_sound g f v :
  new_filter (show (Plain g)) = Some f -> pattern_wf (Plain g) ->
  matches f v = true -> glob_lang_overlap g v.
Proof.
  intros Hf Hg. destruct (new_filter_complete (Plain g) Hg) as (f' & E & _ & H & _).
  assert (f' = f) as <- by congruence. apply H. congruence.
Qed.
Print Assumptions C11_glob_sound.

Theorem C11_glob_negated_complete g f v :
  new_filter (show (Negated g)) = Some f -> pattern_wf (Negated g) ->
  ~ glob_lang_overlap g v -> matches f v = true.
Proof.
  intros Hf Hg. destruct (new_filter_complete (Negated g) Hg) as (f' & E & _ & _ & H & _).
  assert (f' = f) as <- by congruence. apply H. eauto.
Qed.
Print Assumptions C11_glob_negated_complete.

Example C11_nonvacuous :
  let g := Negated (Around [Lit "a"; OneOf true (B "xyz"); AnyChar]%char
                           [Alternatives [B "foo"; B "bar"]; InRanges false [("0", "9"); ("a", "f")]%char]) in
  pattern_wf g /\ unambiguous g /\ show g = B "!a[!xyz]?*{foo,bar}[0-9a-f]" /\
  (exists f, new_filter (show g) = Some f /\ matches f (B "abcbarc") = false
             /\ matches f (B "axcbarc") = true) /\
  long_enough g (B "abcbarc") /\
  new_filter (B "a[") = None /\ new_filter (B "**") = None /\ new_filter (B "*a?*") = None /\
  new_filter (B "[z-a]") = None /\ new_filter (B "{}") = None /\ new_filter (B "!") = None.
Proof.
  cbv zeta. split; [|split].
  - closed_wf.
    + intros c d r [= <- <- <-]; discriminate.
    + intros r rs' _ [= <- _]; discriminate.
  - closed_wf.
    intros u w [<-|[<-|[]]] [<-|[<-|[]]] (l & E); auto;
      apply (f_equal (@rev ascii)) in E; rewrite rev_app_distr in E; discriminate.
  - split; [reflexivity|]. split.
    + eexists; split; [reflexivity|]. split; reflexivity.
    + split; [vm_compute; lia|repeat split].
Qed.

(** ** C12: filter combinators obey boolean algebra *)
Theorem C12_combinators f fs p v :
  (matches (FNot f) v = true <-> matches f v <> true) /\
  (matches (FMulti fs Conjunction) v = true <-> forall g, In g fs -> matches g v = true) /\
  (fs <> [] -> matches (FMulti fs Disjunction) v = true <-> exists g, In g fs /\ matches g v = true) /\
  (forall op, matches (FMulti [] op) v = true) /\
  (matches (FEqual p) v = true <-> v = p) /\
  (matches (FContains p) v = true <-> exists l r, v = l ++ p ++ r).
Proof.
  split; [|split; [|split; [|split; [|split]]]].
  - cbn [matches]. rewrite negb_true_iff, not_true_iff_false; tauto.
  - apply multi_conj.
  - apply multi_disj.
  - reflexivity.
  - cbn [matches]. rewrite beqb_eq; split; auto.
  - apply contains_sub_spec.
Qed.
Print Assumptions C12_combinators.

(** A filter value with the negation flag set complements the filter of its pattern. *)
Theorem C12_filter_value pat f g v :
  new_filter_from_value (mk_fv pat false) = Some f ->
  new_filter_from_value (mk_fv pat true) = Some g ->
  matches g v = negb (matches f v).
Proof.
  unfold new_filter_from_value; cbn [fv_pattern fv_negate].
  destruct (new_filter pat); [|discriminate]. intros [= <-] [= <-]. reflexivity.
Qed.
Print Assumptions C12_filter_value.

Example C12_nonvacuous :
  let f := FMulti [FNot (FEqual (B "a")); FMulti [FContains (B "b"); FExternal (fun v => Nat.ltb 3 (length v))] Disjunction] Conjunction in
  matches f (B "abc") = true /\ matches f (B "a") = false /\ matches f (B "c") = false /\ matches f (B "cdef") = true.
Proof. repeat split. Qed.

(** ** C13: tag filters match by tag *)

(** [m] is the map of tag filters in the order it happens to be iterated. *)
Theorem C13_conjunction m opts f id name section tags :
  NoDup (map fst m) -> new_tags_filter m Conjunction opts = Some f ->
  tfo_name_and_tags opts id = Some (name, section) ->
  tfo_sorted_tags opts section = (tags, false) -> names_sorted tags ->
  tags_matches f id = true <->
  forall n fv, In (n, fv) m -> exists g, new_filter_from_value fv = Some g /\
    condition (tfo_name_tag_key opts) (matches g) n name tags.
Proof.
  intros Hnd Hf Hid Hit Hs.
  destruct (tags_conj m opts f Conjunction Hnd Hf id name section tags false Hid Hit Hs eq_refl) as [H1 H2].
  split.
  - intros H n fv Hin. apply H1 in H. rewrite Forall_forall in H. exact (H _ Hin).
  - intros H. apply H2; auto. rewrite Forall_forall. intros [n fv] Hin. exact (H n fv Hin).
Qed.
Print Assumptions C13_conjunction.

(** The same in one direction when the tag section ends in something that is not a tag. *)
Theorem C13_conjunction_malformed m opts f id name section tags :
  NoDup (map fst m) -> new_tags_filter m Conjunction opts = Some f ->
  tfo_name_and_tags opts id = Some (name, section) ->
  tfo_sorted_tags opts section = (tags, true) -> names_sorted tags ->
  tags_matches f id = true ->
  forall n fv, In (n, fv) m -> exists g, new_filter_from_value fv = Some g /\
    condition (tfo_name_tag_key opts) (matches g) n name tags.
Proof.
  intros Hnd Hf Hid Hit Hs H n fv Hin.
  destruct (tags_conj m opts f Conjunction Hnd Hf id name section tags true Hid Hit Hs eq_refl) as [H1 _].
  apply H1 in H. rewrite Forall_forall in H. exact (H _ Hin).
Qed.
Print Assumptions C13_conjunction_malformed.

Theorem C13_disjunction m opts f id name section tags malformed :
  NoDup (map fst m) -> m <> [] -> new_tags_filter m Disjunction opts = Some f ->
  tfo_name_and_tags opts id = Some (name, section) ->
  tfo_sorted_tags opts section = (tags, malformed) -> names_sorted tags ->
  tags_matches f id = true <->
  exists n fv g, In (n, fv) m /\ new_filter_from_value fv = Some g /\
    condition (tfo_name_tag_key opts) (matches g) n name tags.
Proof.
  intros Hnd Hne Hf Hid Hit Hs.
  rewrite (tags_disj m opts f Disjunction Hnd Hf id name section tags malformed Hid Hit Hs eq_refl Hne).
  rewrite Exists_exists. split.
  - intros ([n fv] & Hin & g & Hg & Hc). exists n, fv, g; auto.
  - intros (n & fv & g & Hin & Hg & Hc). exists (n, fv); split; auto. exists g; auto.
Qed.
Print Assumptions C13_disjunction.

(** A filter without any condition matches everything; the filter exists exactly
    when every pattern compiles; an ID that cannot be split matches nothing else. *)
Theorem C13_edges m op opts :
  (exists f, new_tags_filter [] op opts = Some f /\ forall id, tags_matches f id = true) /\
  (new_tags_filter m op opts = None <-> exists n fv, In (n, fv) m /\ new_filter_from_value fv = None) /\
  (forall f id, NoDup (map fst m) -> m <> [] -> new_tags_filter m op opts = Some f ->
     tfo_name_and_tags opts id = None -> tags_matches f id = false).
Proof.
  split; [apply tags_empty|]. split.
  - unfold new_tags_filter. rewrite <- (compile_tags_none (tfo_name_tag_key opts) m None []).
    destruct (compile_tags _ m None []) as [[nm ts]|]; split; congruence.
  - intros f id Hnd Hne Hf Hid.
    destruct (new_tags_parts m opts f op Hnd Hf) as (ts & Hc & Ht & _ & Ho & _).
    unfold tags_matches. rewrite Ho, Hid.
    destruct (tf_name f) eqn:En; auto. destruct (tf_tags f) eqn:Et; auto.
    exfalso. apply compile_tags_spec in Hc as (H1 & H2 & H3 & H4); auto.
    assert (ts = []) as ->.
    { destruct ts as [|e ts]; auto. assert (In e []); [|contradiction].
      rewrite Ht. apply isort_in. now left. }
    destruct m as [|[n fv] m']; [congruence|].
    destruct (bytes_dec (tfo_name_tag_key opts) n) as [E|E].
    + subst n. destruct H2 as [(? & ? & _ & _ & ?)|[Hno _]]; [discriminate|]. apply (Hno fv); now left.
    + simpl in H4. apply beqb_neq in E. rewrite E in H4. discriminate.
Qed.
Print Assumptions C13_edges.

Definition example_opts := mk_tfo (B "name") name_and_tags sorted_tags.

Example C13_nonvacuous :
  let m := [(B "service", mk_fv (B "foo*") false); (B "name", mk_fv (B "stats*") false); (B "env", mk_fv (B "prod") true)] in
  let id := B "m3+stats.requests+dc=sjc,env=test,service=foobar,zone=a" in
  NoDup (map fst m) /\ m <> [] /\
  (exists f, new_tags_filter m Conjunction example_opts = Some f /\ tags_matches f id = true
     /\ tags_matches f (B "m3+stats.requests+dc=sjc,service=foobar") = false) /\
  (exists f, new_tags_filter m Disjunction example_opts = Some f
     /\ tags_matches f (B "m3+other+dc=sjc,service=foobar") = true
     /\ tags_matches f (B "m3+other+env=prod,service=bar") = false) /\
  name_and_tags id = Some (B "stats.requests", B "dc=sjc,env=test,service=foobar,zone=a") /\
  (exists ps, sorted_tags (B "dc=sjc,env=test,service=foobar,zone=a") = (ps, false) /\ names_sorted ps).
Proof.
  cbv zeta. split; [|split; [|split; [|split; [|split]]]].
  - repeat constructor; simpl; intuition discriminate.
  - discriminate.
  - eexists; split; [reflexivity|]. split; vm_compute; reflexivity.
  - eexists; split; [reflexivity|]. split; vm_compute; reflexivity.
  - vm_compute; reflexivity.
  - eexists; split; [vm_compute; reflexivity|]. repeat constructor.
Qed.

(** ** C14: tag filter strings parse to a map or fail *)

(** Every string is a list of tokens in exactly one way. *)
Theorem C14_tokens s : exists! ts, spaced ts s.
Proof.
  destruct (spaced_exists s) as (ts & H). exists ts; split; auto.
  intros ts' H'. eapply spaced_unique; eauto.
Qed.
Print Assumptions C14_tokens.

(** Parsing gives the map [m] (in the order of the string) iff the tokens are the
    texts of its entries, each "name:pattern" with non-empty ':'-free sides, no
    name occurs twice, and no entry is negated. *)
Theorem C14_parse ts s m :
  spaced ts s ->
  parse_tag_filter_value_map s = Some m <->
  Forall2 (fun t e => t = tag_filter_text (fst e) (fv_pattern (snd e)) /\
                      tag_filter_ok (fst e) (fv_pattern (snd e)) /\ fv_negate (snd e) = false) ts m
  /\ NoDup (map fst m).
Proof. exact (parse_spec ts s m). Qed.
Print Assumptions C14_parse.

(** Order and spacing do not matter: strings whose tokens are permutations of each
    other give the same map, or both fail. *)
Theorem C14_order ts1 s1 ts2 s2 :
  spaced ts1 s1 -> spaced ts2 s2 -> Permutation ts1 ts2 ->
  match parse_tag_filter_value_map s1, parse_tag_filter_value_map s2 with
  | Some m1, Some m2 => Permutation m1 m2
  | None, None => True
  | _, _ => False
  end.
Proof.
  intros H1 H2 Hp.
  assert (Hgo : forall ts1 s1 ts2 s2 m1, spaced ts1 s1 -> spaced ts2 s2 -> Permutation ts1 ts2 ->
            parse_tag_filter_value_map s1 = Some m1 ->
            exists m2, parse_tag_filter_value_map s2 = Some m2 /\ Permutation m1 m2).
  { clear. intros ts1 s1 ts2 s2 m1 H1 H2 Hp E.
    apply (parse_spec ts1 s1 m1 H1) in E as [Hf Hn].
    destruct (Permutation_Forall2 Hp Hf) as (m2 & Hp2 & Hf2).
    exists m2; split; auto. apply (parse_spec ts2 s2 m2 H2). split; auto.
    eapply Permutation_NoDup; [|exact Hn]. now apply Permutation_map. }
  destruct (parse_tag_filter_value_map s1) as [m1|] eqn:E1.
  - destruct (Hgo ts1 s1 ts2 s2 m1 H1 H2 Hp E1) as (m2 & -> & ?); auto.
  - destruct (parse_tag_filter_value_map s2) as [m2|] eqn:E2; auto.
    destruct (Hgo ts2 s2 ts1 s1 m2 H2 H1 (Permutation_sym Hp) E2) as (m & E & _). congruence.
Qed.
Print Assumptions C14_order.

(** Validation accepts exactly the strings that parse and whose patterns all compile. *)
Theorem C14_validate s m :
  validate_tags_filter s = Some m <->
  parse_tag_filter_value_map s = Some m /\
  forall n fv, In (n, fv) m -> exists f, new_filter_from_value fv = Some f.
Proof.
  unfold validate_tags_filter. destruct (parse_tag_filter_value_map s) as [m'|]; [|split; [discriminate|intros [? _]; discriminate]].
  destruct (map_opt (fun e => new_filter_from_value (snd e)) m') as [fs|] eqn:E.
  - split; [|intros [? _]; auto]. intros [= <-]. split; auto. intros n fv Hin.
    destruct (new_filter_from_value fv) eqn:Ef; eauto.
    assert (map_opt (fun e => new_filter_from_value (snd e)) m' = None) by (apply map_opt_none; exists (n, fv); auto).
    congruence.
  - split; [discriminate|]. intros [[= <-] H]. apply map_opt_none in E as ([n fv] & Hin & Hx).
    destruct (H n fv Hin) as (f & Hf). simpl in Hx. congruence.
Qed.
Print Assumptions C14_validate.

Example C14_nonvacuous :
  spaced [B "env:prod"; B "service:foo*"] (B "  env:prod   service:foo* ") /\
  parse_tag_filter_value_map (B "  env:prod   service:foo* ") =
    Some [(B "env", mk_fv (B "prod") false); (B "service", mk_fv (B "foo*") false)] /\
  parse_tag_filter_value_map (B "env:prod env:test") = None /\
  parse_tag_filter_value_map (B "env:prod:x") = None /\
  parse_tag_filter_value_map (B "env:") = None /\ parse_tag_filter_value_map (B ":x") = None /\
  parse_tag_filter_value_map (B "") = Some [] /\
  validate_tags_filter (B "env:[a") = None.
Proof. split; [|repeat split]. apply (toks_spaced (B "  env:prod   service:foo* ")). Qed.
(** A no-break space (C2 A0) is cut off like a space, but only a space separates. *)
Example C14_white :
  let nbsp := map ascii_of_N [194; 160]%N in
  spaced [B "env:prod"; B "a:b"] (nbsp ++ B "env:prod" ++ nbsp ++ B " a:b") /\
  parse_tag_filter_value_map (nbsp ++ B "env:prod" ++ nbsp ++ B " a:b") =
    Some [(B "env", mk_fv (B "prod") false); (B "a", mk_fv (B "b") false)] /\
  parse_tag_filter_value_map (B "env:prod" ++ nbsp ++ B "a:b") = None.
Proof.
  split; [|repeat split]. exact (toks_spaced (map ascii_of_N [194; 160]%N ++ B "env:prod" ++ map ascii_of_N [194; 160]%N ++ B " a:b")).
Qed.


(** ** C15: rollup IDs parse back to their name and tags *)
Theorem C15_rollup_id_parses name tags :
  name_ok name -> Forall tag_ok tags ->
  exists section ps,
    name_and_tags (new_rollup_id name tags) = Some (name, section) /\
    sorted_tags section = (ps, false) /\
    Permutation ps ((B "m3_rollup", B "true") :: tags) /\ names_sorted ps /\
    is_rollup_id name section = true.
Proof. exact (rollup_id_parse name tags). Qed.
Print Assumptions C15_rollup_id_parses.

(** Conversely an ID is a rollup ID exactly when its tag section lists the marker tag
    before anything malformed. *)
Theorem C15_is_rollup_id name section ps malformed :
  tag_section ps malformed section ->
  is_rollup_id name section = true <-> In (B "m3_rollup", B "true") ps.
Proof.
  intros H. unfold is_rollup_id. rewrite (proj2 (sorted_tags_spec _ _ _) H). cbn [fst].
  rewrite existsb_exists. split.
  - intros ([n v] & Hin & E). apply andb_true_iff in E as [E1 E2]. apply beqb_eq in E1, E2. simpl in *; subst. exact Hin.
  - intros Hin. eexists; split; [exact Hin|reflexivity].
Qed.
Print Assumptions C15_is_rollup_id.

Example C15_nonvacuous :
  name_ok (B "stats.p99") /\ Forall tag_ok [(B "service", B "foo"); (B "env", B "prod")] /\
  new_rollup_id (B "stats.p99") [(B "service", B "foo"); (B "env", B "prod")]
  = B "m3+stats.p99+env=prod,m3_rollup=true,service=foo" /\
  tag_section [(B "a", B "b")] true (B "a=b,junk").
Proof.
  split; [|split; [|split]]; try reflexivity.
  - unfold name_ok; simpl; intuition discriminate.
  - repeat constructor; simpl; intuition discriminate.
  - apply sorted_tags_spec; reflexivity.
Qed.

(** ** C16: rollup IDs are canonical and collision free *)
Theorem C16_canonical name tags1 tags2 :
  NoDup (map fst ((B "m3_rollup", B "true") :: tags1)) -> Permutation tags1 tags2 ->
  new_rollup_id name tags1 = new_rollup_id name tags2.
Proof. exact (rollup_id_canonical name tags1 tags2). Qed.
Print Assumptions C16_canonical.

Theorem C16_collision_free name1 name2 tags1 tags2 :
  name_ok name1 -> name_ok name2 -> Forall tag_ok tags1 -> Forall tag_ok tags2 ->
  new_rollup_id name1 tags1 = new_rollup_id name2 tags2 -> name1 = name2 /\ Permutation tags1 tags2.
Proof. exact (rollup_id_injective name1 name2 tags1 tags2). Qed.
Print Assumptions C16_collision_free.

Example C16_nonvacuous :
  NoDup (map fst [(B "m3_rollup", B "true"); (B "service", B "foo"); (B "env", B "prod")]) /\
  new_rollup_id (B "n") [(B "service", B "foo"); (B "env", B "prod")]
  = new_rollup_id (B "n") [(B "env", B "prod"); (B "service", B "foo")] /\
  new_rollup_id (B "n") [(B "service", B "foo")] <> new_rollup_id (B "n") [(B "service", B "fo")].
Proof.
  split; [|split; [reflexivity|discriminate]]. repeat constructor; simpl; intuition discriminate.
Qed.

(** ** C17: tag value lookup *)

(** How an ID splits, and what the tag iterator yields, on every input. *)
Theorem C17_split id name section :
  name_and_tags id = Some (name, section) <->
  exists before, name_ok before /\ name_ok name /\ id = id_text before name section.
Proof. exact (name_and_tags_spec id name section). Qed.
Print Assumptions C17_split.

Theorem C17_iterate section ps malformed :
  sorted_tags section = (ps, malformed) <-> tag_section ps malformed section.
Proof. exact (sorted_tags_spec section ps malformed). Qed.
Print Assumptions C17_iterate.

Theorem C17_lookup before name section ps malformed n r :
  name_ok before -> name_ok name -> tag_section ps malformed section ->
  tag_value (id_text before name section) n = r <->
  match r with Some v => first_value n ps v | None => forall v, ~ first_value n ps v end.
Proof. intros Hb Hn Hs. now apply (tag_value_spec before name section ps malformed n). Qed.
Print Assumptions C17_lookup.

Theorem C17_lookup_no_id id n :
  (forall before name section, name_ok before -> name_ok name -> id <> id_text before name section) ->
  tag_value id n = None.
Proof. exact (tag_value_bad id n). Qed.
Print Assumptions C17_lookup_no_id.

(** A tag section written as "n1=v1,n2=v2,..." yields exactly its pairs. *)
Theorem C17_well_formed ps :
  Forall tag_ok ps -> sorted_tags (write_tags ps) = (ps, false).
Proof. intros H. apply sorted_tags_spec. now apply write_tags_section. Qed.
Print Assumptions C17_well_formed.

Example C17_nonvacuous :
  tag_value (B "m3+name+a=1,b=2,a=3") (B "a") = Some (B "1") /\
  tag_value (B "m3+name+a=1,b=2") (B "c") = None /\
  tag_section [(B "a", B "1"); (B "b", B "2"); (B "a", B "3")] false (B "a=1,b=2,a=3") /\
  id_text [] (B "name") (B "a=1") = B "m3+name+a=1".
Proof. repeat split. apply sorted_tags_spec. reflexivity. Qed.
