(** C99: a calendar of the grammar of RFC 5545 that is imported and exported again. *)
From Coq Require Import ZifyBool ZifyNat ZifyN.
From Verif Require Import Str StrFacts Spec Fold Text ValueTypes Property Chrono DateTime Component Calendar Nom Parser
  SpecBuild SpecDate SpecTree SpecDoc SpecRound SpecText SpecMore SpecConv SpecRfc SpecImport SpecExport
  DocProofs RfcProofs ImportProofs ExportProofs Properties_Build Properties_Items Properties_Rfc Properties_Import.

(** C99. A calendar of the grammar that is read as it says (C98), is imported and exported as one document of the grammar, in which
    the components, the lines and the parameters are those of the first, as far as [calendar_close] says; it says the same if and
    only if the first has no more than one text in a value and no property twice in a component that is not treated as multi-valued. *)
Theorem C99_exact : forall {U : Unicode} rs cs s, document_kept (RNode (lit "VCALENDAR") rs cs) s -> tree_valid (RNode (lit "VCALENDAR") rs cs) ->
  exists c, calendar_from_str s = Ok c /\ forall e s', clock_ok e -> cal_write e c = Ret s' ->
    exists t', (forall d, rfc_document d s' <-> d = t')
      /\ calendar_close (RNode (lit "VCALENDAR") rs cs) t'
      /\ (calendar_same (RNode (lit "VCALENDAR") rs cs) t' <-> calendar_single (RNode (lit "VCALENDAR") rs cs)).
Proof.
  intros U rs cs s K V. destruct (calendar_exported rs cs s K V) as (c & R & W & M & H). exists c. split; [exact R|]. intros e s' C E.
  destruct (C77_calendar e c s' M C E) as (ts & A & _ & D). destruct (tree_says_exists (Node (lit "VCALENDAR") (c_props c) ts)) as [t' T]. exists t'. split; [|now apply (H e ts)].
  intros d. now apply D.
Qed.
Print Assumptions C99_exact.

(** Several texts become one text with commas. *)
Lemma texts_pieces : forall vs w, rfc_texts vs w -> exists ps, Forall rfc_piece ps /\ w = wire ps /\ joined vs = decoded ps.
Proof.
  induction 1 as [v w T|v w vs ws T R (qs & Q & -> & J)]; apply text_pieces in T as (ps & P & -> & ->); apply fine_rfc in P.
  - exists ps. split; [exact P|]. split; [reflexivity|]. cbn [joined map concat]. apply app_nil_r.
  - exists (ps ++ Plain COMMA :: qs). split; [apply Forall_app; split; [exact P|]; constructor; [discriminate|exact Q]|]. split.
    + unfold wire. rewrite flat_map_app. reflexivity.
    + assert (vs <> []) by (intros ->; inversion R). rewrite joined_cons, J by assumption. unfold decoded. rewrite map_app. reflexivity.
Qed.
Theorem C99_texts : forall vs w w', rfc_texts vs w -> one_text w w' -> rfc_text (joined vs) w'.
Proof. intros vs w w' T O. apply texts_pieces in T as (ps & P & E & ->). now apply O. Qed.
Print Assumptions C99_texts.

(** Events with given lines. *)
Definition event_tree (rs : list rline) : rtree := RNode (lit "VCALENDAR") [RLine (lit "VERSION") [] (lit "2.0")] [RNode (lit "VEVENT") rs []].
Definition event_lines (ls : list str) : list str := [lit "BEGIN:VCALENDAR"; lit "VERSION:2.0"; lit "BEGIN:VEVENT"] ++ ls ++ [lit "END:VEVENT"; lit "END:VCALENDAR"].
Lemma event_kept : forall rs ls, Forall2 (fun r l => (property_name (rl_name r) /\ rfc_line r l) /\ line_kept r l) rs ls -> document_kept (event_tree rs) (ended (event_lines ls)).
Proof.
  intros rs ls F. apply lines_kept. unfold event_lines. cbn [app].
  replace (lit "BEGIN:VEVENT" :: ls ++ [lit "END:VEVENT"; lit "END:VCALENDAR"]) with (concat [lit "BEGIN:VEVENT" :: ls ++ concat [] ++ [lit "END:VEVENT"]] ++ [lit "END:VCALENDAR"])
    by (cbn [concat app]; rewrite app_nil_r, <- app_assoc; reflexivity).
  apply (Component_kept (lit "VCALENDAR") _ [lit "VERSION:2.0"]); [now apply tokenb_spec| |].
  - constructor; [|constructor]. split; [apply version_line|]. split; [intros [q E]; discriminate E|]. split; [intros [q E]; discriminate E|].
    split; [exists []; split; [constructor|reflexivity]|]. apply plain_kept. vm_compute. intuition discriminate.
  - constructor; [|constructor]. apply (Component_kept (lit "VEVENT") rs ls [] []); [now apply tokenb_spec|exact F|constructor].
Qed.
Lemma plain_pieces : forall v, ~ In BSL v -> Forall rfc_piece (map Plain v) /\ v = wire (map Plain v).
Proof.
  induction v as [|c v IH]; intros N; [split; [constructor|reflexivity]|]. destruct IH as [A B]; [intros I; apply N; now right|]. split.
  - constructor; [|exact A]. intros ->. apply N. now left.
  - unfold wire. cbn [map flat_map wire_piece app]. f_equal. exact B.
Qed.
Lemma bare_valid : forall n v, ~ In BSL v -> line_valid (RLine n [] v).
Proof. intros n v B. split; [constructor|]. intros _. exists (map Plain v). cbn [rl_value]. now apply plain_pieces. Qed.
Lemma event_valid : forall rs, Forall line_valid rs -> tree_valid (event_tree rs).
Proof.
  intros rs F. constructor; [|constructor; [|constructor]; now constructor]. constructor; [|constructor]. apply bare_valid. vm_compute. intuition discriminate.
Qed.
Lemma params_kept : forall n ps ts v, property_nameb n = true -> rfc_params ps ts -> kept_params ps ts -> forallb (fun c => negb (controlb c)) v = true -> ~ In BSL v ->
  ~ has_prefix (lit "END") n -> ~ has_prefix (lit "BEGIN") n ->
  (property_name (rl_name (RLine n ps v)) /\ rfc_line (RLine n ps v) (n ++ ts ++ COLON :: v)) /\ line_kept (RLine n ps v) (n ++ ts ++ COLON :: v).
Proof.
  intros n ps ts v N R K V B E1 E2. split; [now apply line_rfc|]. split; [exact E1|]. split; [exact E2|]. split; [now exists ts|]. now apply plain_kept.
Qed.
Lemma event_changed : forall {U : Unicode} rs ls, Forall2 (fun r l => (property_name (rl_name r) /\ rfc_line r l) /\ line_kept r l) rs ls -> Forall line_valid rs ->
  ~ calendar_single (event_tree rs) -> (forall c, calendar_from_str (ended (event_lines ls)) = Ok c -> exists s', cal_write some_env c = Ret s') ->
  exists s c e s' t', document_kept (event_tree rs) s /\ tree_valid (event_tree rs) /\ calendar_from_str s = Ok c
    /\ clock_ok e /\ cal_write e c = Ret s' /\ rfc_document t' s' /\ ~ calendar_same (event_tree rs) t'.
Proof.
  intros U rs ls F V N W. pose proof (event_kept rs ls F) as K. pose proof (event_valid rs V) as T. destruct (C99_exact _ _ _ K T) as (c & R & H).
  destruct (W c R) as [s' E]. destruct (H some_env s' some_env_ok E) as (t' & D & _ & S). exists (ended (event_lines ls)), c, some_env, s', t'.
  split; [exact K|]. split; [exact T|]. split; [exact R|]. split; [apply some_env_ok|]. split; [exact E|]. split; [now apply D|]. intros Q. now apply N, S.
Qed.
(** Two categories become one with a comma; a quoted value with a comma becomes two values; of two time zone names only the last is there; a
    value of an unknown type is written with escapes. *)
Definition changed_events : list (list rline) :=
  [ [RLine (lit "CATEGORIES") [] (lit "A,B")];
    [RLine (lit "X-A") [(lit "X-M", [lit "a,b"])] (lit "v")];
    [RLine (lit "TZNAME") [] (lit "A"); RLine (lit "TZNAME") [] (lit "B")];
    [RLine (lit "DESCRIPTION") [(lit "VALUE", [lit "X-Y"])] (lit "a;b")] ].
Theorem C99_refuted : forall {U : Unicode} rs, In rs changed_events ->
  exists s c e s' t', document_kept (event_tree rs) s /\ tree_valid (event_tree rs) /\ calendar_from_str s = Ok c
    /\ clock_ok e /\ cal_write e c = Ret s' /\ rfc_document t' s' /\ ~ calendar_same (event_tree rs) t'.
Proof.
  intros U rs [<-|[<-|[<-|[<-|[]]]]].
  - apply (event_changed _ [lit "CATEGORIES" ++ [] ++ COLON :: lit "A,B"]).
    + constructor; [|constructor]. apply params_kept; try reflexivity; [constructor|constructor|vm_compute; intuition discriminate| |]; intros [q E]; discriminate E.
    + constructor; [|constructor]. apply bare_valid. vm_compute. intuition discriminate.
    + intros S. inversion S as [? ? ? _ S2]; subst. inversion S2 as [|? ? S3 _]; subst. inversion S3 as [? ? ? S4 _ _]; subst. inversion S4 as [|? ? (_ & S5 & _) _]; subst.
      destruct S5 as [v T].
      * right. split; [intros n t _ (a & k & b & E & _); now destruct a|]. exists "CATEGORIES"%string. split; [cbn; tauto|reflexivity].
      * right. split; [constructor|]. exists "CATEGORIES"%string. split; [cbn; tauto|reflexivity].
      * cbn [rl_value] in T. apply text_pieces in T as (ps & P & E & _). destruct ps as [|[c|c] [|[d|d] ps]]; vm_compute in E; try discriminate E. injection E as <- <- _.
        inversion P as [|? ? _ P2]; subst. inversion P2 as [|? ? P3 _]; subst. apply (proj2 P3). cbn. tauto.
    + intros c E. vm_compute in E. injection E as <-. eexists. vm_compute. reflexivity.
  - assert (A : rfc_pvalues [lit "a,b"] (quoted (lit "a,b"))) by (constructor; apply rv_quoted; now apply chars_quoted).
    apply (event_changed _ [lit "X-A" ++ (SEMI :: lit "X-M" ++ EQUALS :: quoted (lit "a,b") ++ []) ++ COLON :: lit "v"]).
    + constructor; [|constructor]. apply params_kept; try reflexivity.
      * apply rp_more; [now apply tokenb_spec|exact A|constructor].
      * apply kp_more; [exact A|right; now exists (lit "a,b")|constructor].
      * vm_compute. intuition discriminate.
      * intros [q E]; discriminate E.
      * intros [q E]; discriminate E.
    + constructor; [|constructor]. split; [cbn [rl_params map]; constructor; [easy|constructor]|]. intros _. exists (map Plain (lit "v")). cbn [rl_value]. apply plain_pieces. vm_compute. intuition discriminate.
    + intros S. inversion S as [? ? ? _ S2]; subst. inversion S2 as [|? ? S3 _]; subst. inversion S3 as [? ? ? S4 _ _]; subst. inversion S4 as [|? ? (S5 & _) _]; subst.
      inversion S5 as [|? ? S6 _]; subst. apply S6. exists (lit "a,b"). split; [reflexivity|]. vm_compute. intuition discriminate.
    + intros c E. vm_compute in E. injection E as <-. eexists. vm_compute. reflexivity.
  - apply (event_changed _ [lit "TZNAME" ++ [] ++ COLON :: lit "A"; lit "TZNAME" ++ [] ++ COLON :: lit "B"]).
    + constructor; [|constructor; [|constructor]]; apply params_kept; try reflexivity; try constructor; try (vm_compute; intuition discriminate); intros [q E]; discriminate E.
    + constructor; [|constructor; [|constructor]]; apply bare_valid; vm_compute; intuition discriminate.
    + intros S. inversion S as [? ? ? _ S2]; subst. inversion S2 as [|? ? S3 _]; subst. inversion S3 as [? ? ? _ S4 _]; subst. specialize (S4 (lit "TZNAME")).
      apply ConvProofs.is_multi_name_spec in S4; [discriminate S4|]. vm_compute. lia.
    + intros c E. vm_compute in E. injection E as <-. eexists. vm_compute. reflexivity.
  - assert (A : rfc_pvalues [lit "X-Y"] (lit "X-Y")) by (constructor; apply rv_plain; now apply chars_safe).
    apply (event_changed _ [lit "DESCRIPTION" ++ (SEMI :: lit "VALUE" ++ EQUALS :: lit "X-Y" ++ []) ++ COLON :: lit "a;b"]).
    + constructor; [|constructor]. apply params_kept; try reflexivity.
      * apply rp_more; [now apply tokenb_spec|exact A|constructor].
      * apply kp_more; [exact A|left; vm_compute; intuition discriminate|constructor].
      * vm_compute. intuition discriminate.
      * intros [q E]; discriminate E.
      * intros [q E]; discriminate E.
    + constructor; [|constructor]. split; [cbn [rl_params map]; constructor; [easy|constructor]|]. intros _. exists (map Plain (lit "a;b")). cbn [rl_value]. apply plain_pieces. vm_compute. intuition discriminate.
    + intros S. inversion S as [? ? ? _ S2]; subst. inversion S2 as [|? ? S3 _]; subst. inversion S3 as [? ? ? S4 _ _]; subst. inversion S4 as [|? ? (_ & _ & S5) _]; subst.
      assert (F : first_named (eq (lit "VALUE")) [(lit "VALUE", [lit "X-Y"])] [lit "X-Y"]) by (exists [], (lit "VALUE"), []; split; [reflexivity|]; split; [reflexivity|constructor]).
      assert (X : Forall (fun c => ~ In c [BSL; SEMI; COMMA]) (lit "a;b")).
      { apply S5.
        - right. split; [|exists "DESCRIPTION"%string; split; [cbn; tauto|reflexivity]]. intros n t I G. pose proof (first_fun _ _ _ _ F G) as E.
          assert (E' : lit "X-Y" = lit n) by congruence. clear - I E'. cbn in I. repeat (destruct I as [I|I]; [injection I as <- _; discriminate E'|]). destruct I.
        - intros [(v & (a & k & b & E & _ & _) & T)|[G _]].
          + cbn [rl_params] in E. destruct a as [|x a]; [injection E as _ <- _; discriminate T|destruct a; discriminate E].
          + inversion G as [|? ? G1 _]; subst. now apply G1. }
      inversion X as [|? ? _ X2]; subst. inversion X2 as [|? ? X3 _]; subst. apply X3. cbn. tauto.
    + intros c E. vm_compute in E. injection E as <-. eexists. vm_compute. reflexivity.
Qed.
Print Assumptions C99_refuted.

(** The document of [C98_example], with quotes, two values of a parameter, escapes and a folded line, comes back as one that says the same. *)
Example C99_example : forall {U : Unicode}, document_kept kept_cal kept_doc /\ tree_valid kept_cal /\ calendar_single kept_cal
  /\ exists c s' t', calendar_from_str kept_doc = Ok c /\ cal_write some_env c = Ret s' /\ rfc_document t' s' /\ calendar_same kept_cal t'.
Proof.
  intros U. set (ps := [Plain 97; Escaped 44; Plain 32; Plain 98; Escaped 92; Plain 99; Escaped 110; Plain 100; Plain 58; Plain 32; Plain 101]%N).
  assert (F : Forall fine ps) by (unfold ps; repeat (constructor; [vm_compute; intuition discriminate|]); constructor).
  assert (V : tree_valid kept_cal).
  { apply event_valid. constructor; [|constructor]. split.
    - cbn [rl_params map fst]. constructor; [|constructor; [easy|constructor]]. intros [E|[]]. discriminate E.
    - intros _. exists ps. split; [now apply fine_rfc|reflexivity]. }
  assert (S : calendar_single kept_cal).
  { constructor.
    - constructor; [|constructor]. split; [constructor|]. split.
      + intros _ _. exists (lit "2.0"). cbn [rl_value]. repeat (apply rt_char; [vm_compute; intuition discriminate|vm_compute; intuition discriminate|]). constructor.
      + intros _ _. repeat (constructor; [vm_compute; intuition discriminate|]). constructor.
    - constructor; [|constructor]. constructor; [|intros n L|constructor].
      + constructor; [|constructor]. split; [|split].
        * constructor; [|constructor; [|constructor]]; intros (v & E & I & J & _); cbn [snd] in E; [|discriminate E]. injection E as <-. apply J. vm_compute. tauto.
        * intros _ _. exists (decoded ps). change (rl_value _) with (wire ps). now apply pieces_text.
        * intros _ N. destruct N. right. split; [|exists "DESCRIPTION"%string; split; [cbn; tauto|reflexivity]]. constructor; [discriminate|]. constructor; [discriminate|constructor].
      + exfalso. unfold named in L. cbn [filter] in L. destruct (str_eqb _ n); cbn in L; lia. }
  split; [apply C98_example|]. split; [exact V|]. split; [exact S|].
  destruct (C99_exact _ _ kept_doc (proj1 C98_example) V) as (c & R & H).
  assert (W : exists s', cal_write some_env c = Ret s') by (vm_compute in R; injection R as <-; eexists; vm_compute; reflexivity).
  destruct W as [s' W]. destruct (H some_env s' some_env_ok W) as (t' & D & _ & E). exists c, s', t'. split; [exact R|]. split; [exact W|]. split; [now apply D|now apply E].
Qed.
