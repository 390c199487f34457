(** Calendars, durations and alarms: specification. *)
From Verif Require Import Str Spec ValueTypes Property Chrono DateTime Component Alarm Calendar SpecBuild SpecDate.

(** Operations on a calendar and what each of them adds. *)
Inductive cal_op :=
| OPush (x : cal_component) | OExtend (l : list cal_component) | OAppend (d : calendar)
| OProp (p : property) | OName (s : str) | ODescription (s : str) | OTimezone (s : str) | OTtl (d : duration).
Definition do_op (c : calendar) (o : cal_op) : calendar :=
  match o with
  | OPush x => cal_push c x | OExtend l => cal_extend c l | OAppend d => fst (cal_append c d)
  | OProp p => cal_append_property c p | OName s => cal_name c s | ODescription s => cal_description c s
  | OTimezone s => cal_timezone c s | OTtl d => cal_ttl c d
  end.
Definition run_ops (l : list cal_op) (c : calendar) : calendar := fold_left do_op l c.
Definition op_comps (o : cal_op) : list cal_component :=
  match o with OPush x => [x] | OExtend l => l | OAppend d => c_comps d | _ => [] end.
Definition op_props (o : cal_op) : list property :=
  match o with
  | OPush _ | OExtend _ | OAppend _ => []
  | OProp p => [p]
  | OName s => [text_prop "NAME" s; text_prop "X-WR-CALNAME" s]
  | ODescription s => [text_prop "DESCRIPTION" s; text_prop "X-WR-CALDESC" s]
  | OTimezone s => [text_prop "TIMEZONE-ID" s; text_prop "X-WR-TIMEZONE" s]
  | OTtl d => [mk_property (lit "REFRESH-INTERVAL") (dur_text d) [(lit "VALUE", lit "DURATION")];
               text_prop "X-PUBLISHED-TTL" (dur_text d)]
  end.
(** The value of the first property with a key. *)
Inductive first_value (k : str) : list property -> str -> Prop :=
| fv_here : forall p l, p_key p = k -> first_value k (p :: l) (p_val p)
| fv_later : forall p l v, p_key p <> k -> first_value k l v -> first_value k (p :: l) v.
Definition lacks (k : string) (ps : list property) : Prop := Forall (fun p => p_key p <> lit k) ps.

(** Durations (ISO 8601, as restricted by RFC 5545 section 3.3.6, with fractions): the number of
    nanoseconds a text denotes. *)
Definition WEEK : N := 604800000000000%N.
Definition DAY : N := 86400000000000%N.
Definition HOUR : N := 3600000000000%N.
Definition MINUTE : N := 60000000000%N.
Definition SECOND : N := 1000000000%N.
(** A number counting units of [u] nanoseconds; a fraction of [k] digits counts [u/10^k] each. *)
Inductive amount (u : N) : str -> N -> Prop :=
| am_whole : forall s n, decimal s n -> amount u s (n * u)
| am_frac : forall s n f m x, decimal s n -> decimal f m -> (x * 10 ^ N.of_nat (length f) = m * u)%N ->
    amount u (s ++ 46%N :: f) (n * u + x).
(** A sequence of amounts with their designators, in the order given. *)
Inductive amounts : list (char * N) -> str -> N -> Prop :=
| as_nil : forall l, amounts l [] 0
| as_skip : forall d l s n, amounts l s n -> amounts (d :: l) s n
| as_cons : forall c u l a x s n, amount u a x -> amounts l s n ->
    amounts ((c, u) :: l) (a ++ c :: s) (x + n).
(** [W] is 87, [D] 68, [H] 72, [M] 77, [S] 83. *)
Inductive denotes_abs : str -> N -> Prop :=
| da_date : forall s n, s <> [] -> amounts [(87%N, WEEK); (68%N, DAY)] s n -> denotes_abs (lit "P" ++ s) n
| da_time : forall s t n m, amounts [(87%N, WEEK); (68%N, DAY)] s n ->
    t <> [] -> amounts [(72%N, HOUR); (77%N, MINUTE); (83%N, SECOND)] t m ->
    denotes_abs (lit "P" ++ s ++ lit "T" ++ t) (n + m).
Inductive denotes : str -> Z -> Prop :=
| de_pos : forall s n, denotes_abs s n -> denotes s (Z.of_N n)
| de_neg : forall s n, denotes_abs s n -> denotes (DASH :: s) (- Z.of_N n).

(** Durations the reader keeps: not negative, whole milliseconds, at most [u32::MAX] seconds. *)
Definition readable (d : duration) : Prop :=
  (0 <= d)%Z /\ (d mod 1000000 = 0)%Z /\ (d < 4294967296 * 1000000000)%Z.

(** An alarm made by the two constructors and further calls on it: [duration_and_repeat], or calls
    that set properties other than the four below. *)
Inductive alarm_start := SAudio (t : trigger) | SDisplay (desc : str) (t : trigger).
Inductive alarm_call := ADurationRepeat (d : duration) (n : N) | AOther (c : call).
Definition four_keys : list string := ["ACTION"; "TRIGGER"; "DURATION"; "REPEAT"]%string.
Definition alarm_call_ok (a : alarm_call) : Prop :=
  match a with
  | ADurationRepeat _ _ => True
  | AOther c => forall p k, In p (sets c ++ multis c) -> In k four_keys -> p_key p <> lit k
  end.
(** The model's functions for these. *)
Definition do_start (a : alarm_start) : inner :=
  match a with SAudio t => alarm_audio t | SDisplay desc t => alarm_display desc t end.
Definition do_alarm_call (i : inner) (a : alarm_call) : inner :=
  match a with ADurationRepeat d n => duration_and_repeat i d n | AOther c => do_call i c end.
Definition run_alarm (a : alarm_start) (l : list alarm_call) : inner := fold_left do_alarm_call l (do_start a).
(** What the properties of the alarm are to be. *)
Definition start_trigger (a : alarm_start) : trigger := match a with SAudio t | SDisplay _ t => t end.
Definition start_action (a : alarm_start) : string :=
  match a with SAudio _ => "AUDIO" | SDisplay _ _ => "DISPLAY" end.
Definition trigger_prop (t : trigger) : property :=
  match t with
  | TDuration d None => text_prop "TRIGGER" (dur_text d)
  | TDuration d (Some r) => mk_property (lit "TRIGGER") (dur_text d)
      [(lit "RELATED", lit match r with RStart => "START" | REnd => "END" end)]
  | TDateTime c => mk_property (lit "TRIGGER") (dpt_text (DT c)) (dpt_params (DT c) ++ [(lit "VALUE", lit "DATE-TIME")])
  end.
Fixpoint last_repeat (l : list alarm_call) : option (duration * N) :=
  match l with
  | [] => None
  | ADurationRepeat d n :: r => match last_repeat r with Some x => Some x | None => Some (d, n) end
  | AOther _ :: r => last_repeat r
  end.
Definition alarm_subs (a : alarm_call) : list other :=
  match a with ADurationRepeat _ _ => [] | AOther c => subs c end.
