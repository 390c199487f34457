(** The project's own tests, run on the model: src/**/*.rs (unit tests and examples of the documentation), tests/*.rs
    and fixtures/.  The tests pass on the code; that they hold of the model is evidence that the model is the code.
    They are tests, not proofs: no theorem depends on this file.  Unicode tables and the part of iso8601 that is not
    modelled are arbitrary. *)
From Verif Require Import Str Fold Text ValueTypes Property Chrono DateTime Component Alarm Calendar Nom Parser ErrorText Access.

(** ** Rust string literals *)
(** UTF-8 and the escapes of Rust: backslash followed by n, r, t, a backslash. *)
Fixpoint utf8_chars (s : list N) : list N :=
  match s with
  | [] => []
  | a :: r =>
      if (a <? 128)%N then a :: utf8_chars r
      else match r with
           | b :: r1 =>
               if (a <? 224)%N then ((a - 192) * 64 + (b - 128))%N :: utf8_chars r1
               else match r1 with
                    | c :: r2 =>
                        if (a <? 240)%N then ((a - 224) * 4096 + (b - 128) * 64 + (c - 128))%N :: utf8_chars r2
                        else match r2 with
                             | d :: r3 => ((a - 240) * 262144 + (b - 128) * 4096 + (c - 128) * 64 + (d - 128))%N :: utf8_chars r3
                             | [] => []
                             end
                    | [] => []
                    end
           | [] => []
           end
  end.
Fixpoint escapes (s : list N) : list N :=
  match s with
  | 92%N :: c :: r => (if (c =? 110)%N then LF else if (c =? 114)%N then CR else if (c =? 116)%N then TAB else c) :: escapes r
  | c :: r => c :: escapes r
  | [] => []
  end.
Definition rs (s : string) : str := escapes (utf8_chars (lit s)).
Arguments rs _%string.
(** Lines, each followed by CRLF. *)
Fixpoint crlf_lines (s : str) : str := match s with [] => [] | c :: r => if (c =? LF)%N then CR :: LF :: crlf_lines r else c :: crlf_lines r end.
Definition raw (s : string) : str := utf8_chars (lit s).
Arguments raw _%string.

Definition is_ok {A E} (r : result A E) : bool := match r with Ok _ => true | _ => false end.
Definition get_ok {A E} (r : result A E) (a : A) : A := match r with Ok x => x | _ => a end.
Definition ret_or_nil (o : outcome str) : str := match o with Ret s => s | _ => [] end.
Definition date_time (y : Z) (mo d h mi s : N) : ndt := mk_dt (mk_date y mo d) (mk_time h mi s 0).
(** Some time and some identifier. *)
Definition test_env : env := mk_env (fun _ => date_time 2024 6 1 12 0 0) (fun n => N.of_nat n).
Definition par (k v : string) : pparam := mk_pparam (rs k) (Some (rs v)).
Definition par0 (k : string) : pparam := mk_pparam (rs k) None.
Definition pro (k v : string) (ps : list pparam) : pprop := mk_pprop (rs k) (rs v) ps.
Definition com (k : string) (ps : list pprop) (cs : list pcomp) : pcomp := mk_pcomp (rs k) ps cs.
Arguments par (_ _)%string. Arguments par0 _%string. Arguments pro (_ _)%string _. Arguments com _%string _ _.

Section Tests.
Context {U : Unicode} {I : Iso8601}.

(** [assert_parser!]: read completely, with the error type [(_, ErrorKind)]; src/assert.rs:20-36. *)
Notation reads p s v := (p (rs s) = @IOk (str * ekind) _ [] v) (only parsing).
Ltac test := vm_compute; repeat match goal with |- _ /\ _ => split end; reflexivity.

(** src/parser/utils.rs, [test_unfold1] *)
Example test_unfold1 :
  unfold (rs "1 hello world\r\n2 hello \r\n   world\r\n3 hello \r\n world\r\n4 hello world")
    = rs "1 hello world\r\n2 hello   world\r\n3 hello world\r\n4 hello world".
Proof. test. Qed.

(** src/parser/utils.rs, [test_unfold1_tabs] *)
Example test_unfold1_tabs :
  unfold (rs "1 hello world\r\n2 hello \r\n\t\tworld\r\n3 hello \r\n\tworld\r\n4 hello world")
    = rs "1 hello world\r\n2 hello \tworld\r\n3 hello world\r\n4 hello world".
Proof. test. Qed.

(** src/parser/utils.rs, [test_unfold2] (the lines are not split here) *)
Example test_unfold2 :
  unfold (rs "1 hello world\n2 hello \n   world\n3 hello world\n4 hello world")
    = rs "1 hello world\n2 hello   world\n3 hello world\n4 hello world"
  /\ unfold (rs "1 hello world\r\n2 hello \r\n   world\r\n3 hello \r\n world\r\n4 hello world")
    = rs "1 hello world\r\n2 hello   world\r\n3 hello world\r\n4 hello world".
Proof. test. Qed.

(** src/parser/utils.rs, example of [unfold] *)
Example doc_unfold :
  unfold (rs "this gets w\r\n rapped i\r\n n a w\r\n eird\r\n  way") = rs "this gets wrapped in a weird way".
Proof. test. Qed.

(** src/parser/components.rs, [parse_empty_component1], [parse_empty_component2], [parse_empty_component_with_dash] *)
Example parse_empty_component :
  reads component_p "BEGIN:VEVENT\nEND:VEVENT\n" (com "VEVENT" [] [])
  /\ reads component_p "BEGIN:VEVENT\n\nEND:VEVENT\n" (com "VEVENT" [] [])
  /\ reads component_p "BEGIN:X-HOODIE-EVENT\n\nEND:X-HOODIE-EVENT\n" (com "X-HOODIE-EVENT" [] []).
Proof. test. Qed.

(** src/parser/components.rs, [parse_component] *)
Example parse_component :
  reads component_p "BEGIN:VEVENT\nKEY;foo=bar:VALUE\nKEY;foo=bar;DATE=20170218:VALUE\nEND:VEVENT\n" (com "VEVENT" [pro "KEY" "VALUE" [par "foo" "bar"]; pro "KEY" "VALUE" [par "foo" "bar"; par "DATE" "20170218"]] []).
Proof. test. Qed.

(** src/parser/components.rs, [test_components] *)
Example test_components :
  reads component_p "BEGIN:FOO\nEND:FOO" (com "FOO" [] [])
  /\ reads component_p "BEGIN:FOO\nFOO-PROP:important: spam €\nEND:FOO" (com "FOO" [pro "FOO-PROP" "important: spam €" []] [])
  /\ reads component_p "BEGIN:FOO\nUID:e1c97b31-38bb-4b72-b94f-463a12ef5239\nFOO-PROP:sp.am\nEND:FOO" (com "FOO" [pro "UID" "e1c97b31-38bb-4b72-b94f-463a12ef5239" []; pro "FOO-PROP" "sp.am" []] [])
  /\ reads component_p "BEGIN:FOO\nFOO-PROP:spam\nBEGIN:BAR\nBAR-PROP:spam\nEND:BAR\nEND:FOO" (com "FOO" [pro "FOO-PROP" "spam" []] [com "BAR" [pro "BAR-PROP" "spam" []] []]).
Proof. test. Qed.

(** src/parser/components.rs, [test_nested_components] *)
Example test_nested_components :
  reads component_p "BEGIN:FOO\nFOO-PROP:spam\nBEGIN:BAR\nBAR-PROP:spam\nBEGIN:BAR\nBAR-PROP:spam\nEND:BAR\nEND:BAR\nEND:FOO" (com "FOO" [pro "FOO-PROP" "spam" []] [com "BAR" [pro "BAR-PROP" "spam" []] [com "BAR" [pro "BAR-PROP" "spam" []] []]]).
Proof. test. Qed.

(** src/parser/components.rs, [test_multi_components] *)
Example test_multi_components :
  reads component_p "\nBEGIN:VEVENT\nBEGIN:VALARM\nRELATED-TO;RELTYPE=:c605e4e8-8ea3-4315-b139-19394ab3ced6\nEND:VALARM\nEND:VEVENT\n" (com "VEVENT" [] [com "VALARM" [pro "RELATED-TO" "c605e4e8-8ea3-4315-b139-19394ab3ced6" [par0 "RELTYPE"]] []])
  /\ reads component_p "BEGIN:FOO\nFOO-PROP:spam\nBEGIN:BAR\nBAR-PROP:spam\nEND:BAR\nBEGIN:BAR\nBAR-PROP:spam\nEND:BAR\nEND:FOO" (com "FOO" [pro "FOO-PROP" "spam" []] [com "BAR" [pro "BAR-PROP" "spam" []] []; com "BAR" [pro "BAR-PROP" "spam" []] []]).
Proof. test. Qed.

(** src/parser/components.rs, [test_multi_properties] (parameters in the order of the model; the test compares hash maps) *)
Example test_multi_properties :
  match @component_p U (str * ekind) _ (rs "\nBEGIN:VEVENT\nATTENDEE;CUTYPE=INDIVIDUAL;EMAIL=""email@example.com"":mailto:email@example.com\nATTENDEE;CUTYPE=INDIVIDUAL;EMAIL=""dmail@example.com"":mailto:dmail@example.com\nEND:VEVENT\n") with
    | IOk r c => r = [] /\ conv_inner c = mk_inner [] [(rs "ATTENDEE",
        [mk_property (rs "ATTENDEE") (rs "mailto:email@example.com") [(rs "CUTYPE", rs "INDIVIDUAL"); (rs "EMAIL", rs "email@example.com")];
         mk_property (rs "ATTENDEE") (rs "mailto:dmail@example.com") [(rs "CUTYPE", rs "INDIVIDUAL"); (rs "EMAIL", rs "dmail@example.com")]])] []
    | _ => False end.
Proof. test. Qed.

(** src/parser/components.rs, [test_faulty_component] *)
Example test_faulty_component :
  component_p (rs "BEGIN:FOO\nEND:F0O") = @IFail verror _ [(rs "F0O", VNom KTag); (rs "F0O", VContext "mismatching end")].
Proof. test. Qed.

(** src/parser/properties.rs, [properties] *)
Example properties :
  reads property_p "KEY:VALUE\n" (pro "KEY" "VALUE" [])
  /\ reads property_p "KEY1;foo=bar:VALUE\n" (pro "KEY1" "VALUE" [par "foo" "bar"])
  /\ reads property_p "KEY2;foo=bar:VALUE space separated\n" (pro "KEY2" "VALUE space separated" [par "foo" "bar"])
  /\ reads property_p "KEY2;foo=bar:important:VALUE\n" (pro "KEY2" "important:VALUE" [par "foo" "bar"]).
Proof. test. Qed.

(** src/parser/properties.rs, [unescape_text] *)
Example unescape_text_test :
  rmap p_val (property_from_str (rs "DESCRIPTION:https\\://example.com\n")) = Ok (rs "https://example.com")
  /\ reads property_p "DESCRIPTION:https\\://example.com\n" (pro "DESCRIPTION" "https://example.com" []).
Proof. test. Qed.

(** src/parser/properties.rs, [property_escape_url_as_url] *)
Example property_escape_url_as_url :
  rmap p_val (property_from_str (rs "URL:https://example.com\n")) = Ok (rs "https://example.com")
  /\ reads property_p "URL:https://example.com\n" (pro "URL" "https://example.com" []).
Proof. test. Qed.

(** src/parser/properties.rs, [property_escape_description_as_text] *)
Example property_escape_description_as_text :
  reads property_p "DESCRIPTION;foo=bar:VALUE\\n newline separated\n" (pro "DESCRIPTION" "VALUE\n newline separated" [par "foo" "bar"]).
Proof. test. Qed.

(** src/parser/properties.rs, [property_escape_by_value_param] *)
Example property_escape_by_value_param :
  reads property_p "FOO;VALUE=TEXT:VALUE\\n newline separated\n" (pro "FOO" "VALUE\n newline separated" [par "VALUE" "TEXT"])
  /\ reads property_p "FOO_AS_TEXT;VALUE=TEXT:https\\://example.com\n" (pro "FOO_AS_TEXT" "https://example.com" [par "VALUE" "TEXT"])
  /\ reads property_p "FOO_AS_URL;VALUE=URL:https\\://example.com\n" (pro "FOO_AS_URL" "https\\://example.com" [par "VALUE" "URL"]).
Proof. test. Qed.

(** src/parser/properties.rs, [property_with_dash] *)
Example property_with_dash :
  reads property_p "X-HOODIE-KEY:VALUE\n" (pro "X-HOODIE-KEY" "VALUE" []).
Proof. test. Qed.

(** src/parser/properties.rs, [parse_properties_from_rfc] *)
Example parse_properties_from_rfc :
  reads property_p "home.tel;type=fax,voice,msg:+49 3581 123456\n" (pro "home.tel" "+49 3581 123456" [par "type" "fax,voice,msg"])
  /\ reads property_p "email;internet:mb@goerlitz.de\n" (pro "email" "mb@goerlitz.de" [par0 "internet"]).
Proof. test. Qed.

(** src/parser/properties.rs, [parse_property_with_breaks] *)
Example parse_property_with_breaks :
  reads property_p "DESCRIPTION:Hey, I'm gonna have a party\\n BYOB: Bring your own beer.\\n Hendrik\\n\n" (pro "DESCRIPTION" "Hey, I'm gonna have a party\n BYOB: Bring your own beer.\n Hendrik\n" []).
Proof. test. Qed.

(** src/parser/properties.rs, [parse_invalid_property] *)
Example parse_invalid_property :
  let i := rs "END;RELTYPE=:c605e4e8-8ea3-4315-b139-19394ab3ced6\n" in
  property_p i = @IFail verror _ [(i, VNom KSatisfy); (i, VContext "property cannot be END or BEGIN"); (i, VContext "property")].
Proof. test. Qed.

(** src/parser/properties.rs, [parse_property_with_colon] *)
Example parse_property_with_colon :
  reads property_p "RELATED-TO;RELTYPE=:c605e4e8-8ea3-4315-b139-19394ab3ced6\n" (pro "RELATED-TO" "c605e4e8-8ea3-4315-b139-19394ab3ced6" [par0 "RELTYPE"]).
Proof. test. Qed.

(** src/parser/properties.rs, [parse_property_with_no_value] *)
Example parse_property_with_no_value :
  reads property_p "X-NO-VALUE" (pro "X-NO-VALUE" "" []).
Proof. test. Qed.

(** src/parser/mod.rs, [begin_crash] *)
Example begin_crash :
  is_ok (read_calendar (rs "BEGIN:")) = true.
Proof. test. Qed.

(** src/parser/parameters.rs, [test_parameter] *)
Example test_parameter :
  reads parameter_p ";KEY=VALUE" (par "KEY" "VALUE")
  /\ reads parameter_p "; KEY=VALUE" (par "KEY" "VALUE")
  /\ reads parameter_p "; KEY=VAL UE" (par "KEY" "VAL UE")
  /\ reads parameter_p "; KEY=" (par0 "KEY")
  /\ reads parameter_p ";KEY=VAL-UE" (par "KEY" "VAL-UE")
  /\ reads parameter_p ";KEY" (par0 "KEY")
  /\ reads parameter_p ";email=rust@hoodie.de" (par "email" "rust@hoodie.de").
Proof. test. Qed.

(** src/parser/parameters.rs, [test_parameter_with_dash] *)
Example test_parameter_with_dash :
  reads parameter_p ";X-HOODIE-KEY=VALUE" (par "X-HOODIE-KEY" "VALUE").
Proof. test. Qed.

(** src/parser/parameters.rs, [test_quirky_parameter] *)
Example test_quirky_parameter :
  reads parameter_p ";KEY=" (par0 "KEY").
Proof. test. Qed.

(** src/parser/parameters.rs, [parse_parameter_list] *)
Example parse_parameter_list :
  reads parameters ";KEY=VALUE" ([par "KEY" "VALUE"])
  /\ reads parameters ";KEY=VALUE;DATE=TODAY" ([par "KEY" "VALUE"; par "DATE" "TODAY"])
  /\ reads parameters ";KEY=VALUE;DATE=20170218" ([par "KEY" "VALUE"; par "DATE" "20170218"])
  /\ reads parameters ";TEXT=""quoted text with \\;""" ([par "TEXT" "quoted text with \\;"]).
Proof. test. Qed.

Definition rfc_2425_vcard : str := raw "begin:vcard
source:ldap://cn=Meister%20Berger,o=Universitaet%20Goerlitz,c=DE
name:Meister Berger
fn:Meister Berger
n:Berger;Meister
bday;value=date:1963-09-21
o:Universit=E6t G=F6rlitz
title:Mayor
title;language=de;value=text:Burgermeister
note:The Mayor of the great city of
  Goerlitz in the great country of Germany.
email;internet:mb@goerlitz.de
home.tel;type=fax,voice,msg:+49 3581 123456
home.label:Hufenshlagel 1234\n
 02828 Goerlitz\n
 Deutschland
key;type=X509;encoding=b:MIICajCCAdOgAwIBAgICBEUwDQYJKoZIhvcNAQEEBQ
 AwdzELMAkGA1UEBhMCVVMxLDAqBgNVBAoTI05ldHNjYXBlIENvbW11bmljYXRpb25zI
 ENvcnBvcmF0aW9uMRwwGgYDVQQLExNJbmZvcm1hdGlvbiBTeXN0ZW1zMRwwGgYDVQQD
 ExNyb290Y2EubmV0c2NhcGUuY29tMB4XDTk3MDYwNjE5NDc1OVoXDTk3MTIwMzE5NDc
 1OVowgYkxCzAJBgNVBAYTAlVTMSYwJAYDVQQKEx1OZXRzY2FwZSBDb21tdW5pY2F0aW
 9ucyBDb3JwLjEYMBYGA1UEAxMPVGltb3RoeSBBIEhvd2VzMSEwHwYJKoZIhvcNAQkBF
 hJob3dlc0BuZXRzY2FwZS5jb20xFTATBgoJkiaJk/IsZAEBEwVob3dlczBcMA0GCSqG
 SIb3DQEBAQUAA0sAMEgCQQC0JZf6wkg8pLMXHHCUvMfL5H6zjSk4vTTXZpYyrdN2dXc
 oX49LKiOmgeJSzoiFKHtLOIboyludF90CgqcxtwKnAgMBAAGjNjA0MBEGCWCGSAGG+E
 IBAQQEAwIAoDAfBgNVHSMEGDAWgBT84FToB/GV3jr3mcau+hUMbsQukjANBgkqhkiG9
 w0BAQQFAAOBgQBexv7o7mi3PLXadkmNP9LcIPmx93HGp0Kgyx1jIVMyNgsemeAwBM+M
 SlhMfcpbTrONwNjZYW8vJDSoi//yrZlVt9bJbs7MNYZVsyF1unsqaln4/vy6Uawfg8V
 UMk1U7jt8LYpo4YULU7UZHPYVUaSgVttImOHZIKi4hlPXBOhcUQ==
end:vcard".
(** src/parser/tests.rs, [rfc_2425_8_3_3] *)
Example rfc_2425_8_3_3 :
  is_ok (read_calendar (unfold rfc_2425_vcard)) = true.
Proof. test. Qed.

Definition rewrap_input : str := raw "
BEGIN:VCALENDAR
VERSION:3.0
PRODID:MANUAL
X-CALSCALE:HENDRIKIAN
END:VCALENDAR
".
(** src/parser/calendar.rs, [test_calendar_from_parse_calendar] *)
Example test_calendar_from_parse_calendar :
  let count (k : string) := length (filter (fun p => str_eqb (p_key p) (rs k)) (c_props (conv_cal (get_ok (read_calendar rewrap_input) (mk_pcal [] []))))) in
  (is_ok (read_calendar rewrap_input), count "VERSION"%string, count "PRODID"%string, count "CALSCALE"%string) = (true, 1%nat, 1%nat, 0%nat).
Proof. test. Qed.

(** src/components/event.rs, [get_properties_unset], [get_properties_set] *)
Example event_get_properties :
  event_get_status inner_new = None
  /\ event_get_status (event_set_status inner_new Tentative) = Some Tentative.
Proof. test. Qed.

(** src/components/venue.rs, [get_properties_unset] *)
Example venue_get_properties_unset :
  get_street_address inner_new = None
  /\ get_extended_address inner_new = None
  /\ get_locality inner_new = None
  /\ get_region inner_new = None
  /\ get_country inner_new = None
  /\ get_postal_code inner_new = None.
Proof. test. Qed.

(** src/components/venue.rs, [get_properties_set] *)
Example venue_get_properties_set :
  let v := (postal_code (country (region (locality (extended_address (street_address inner_new (rs "street address")) (rs "extended address")) (rs "locality")) (rs "region")) (rs "country")) (rs "postal code")) in
  get_street_address v = Some (rs "street address")
  /\ get_extended_address v = Some (rs "extended address")
  /\ get_locality v = Some (rs "locality")
  /\ get_region v = Some (rs "region")
  /\ get_country v = Some (rs "country")
  /\ get_postal_code v = Some (rs "postal code").
Proof. test. Qed.

(** src/components/todo.rs, [get_properties_unset] *)
Example todo_get_properties_unset :
  get_percent_complete inner_new = None
  /\ todo_get_status inner_new = None
  /\ get_completed inner_new = None
  /\ get_due inner_new = None.
Proof. test. Qed.

(** src/components/todo.rs, [get_properties_set] *)
Example todo_get_properties_set :
  let d := date_time 2001 3 13 14 15 16 in let t := completed (todo_set_status (percent_complete inner_new 42) NeedsAction) d in
  get_percent_complete t = Some 42%N /\ todo_get_status t = Some NeedsAction /\ get_completed t = Some d.
Proof. test. Qed.

(** src/components/todo.rs, [get_date_times_naive], [get_date_times_utc], [get_dates_naive] *)
Example todo_get_dates :
  let d := date_time 2001 3 13 14 15 16 in
  get_due (due inner_new (dpt_from_naive d)) = Some (dpt_from_naive d)
  /\ get_due (completed (due inner_new (dpt_from_utc d)) d) = Some (dpt_from_utc d)
  /\ get_completed (completed (due inner_new (dpt_from_utc d)) d) = Some d
  /\ get_due (due inner_new (dpt_from_date (date_of d))) = Some (dpt_from_date (date_of d)).
Proof. test. Qed.

(** [Alarm::get_action], [get_trigger], [get_repeat] exist for the tests only; src/components/alarm.rs:193-221. *)
Definition get_action (i : inner) : option action := option_map action_from_str (property_value i (lit "ACTION")).
Definition get_trigger (i : inner) : option trigger := match map_get (lit "TRIGGER") (i_props i) with Some p => trigger_from_property p | None => None end.
Definition get_repeat (i : inner) : N := match property_value i (lit "REPEAT") with Some s => match parse_uint (2 ^ 64 - 1) s with Some n => n | None => 0%N end | None => 0%N end.
Definition minutes (n : Z) : duration := (n * 60 * 1000000000)%Z.

(** src/components/alarm.rs, [test_audio] *)
Example test_audio :
  let a := duration_and_repeat (alarm_audio (trigger_from_pair (minutes 15, RStart))) (minutes 5) 3 in
  get_action a = Some Audio /\ get_trigger a = Some (TDuration (minutes 15) (Some RStart))
  /\ option_map as_duration (get_trigger a) = Some (Some (minutes 15))
  /\ option_map trigger_related (get_trigger a) = Some (Some RStart) /\ get_repeat a = 3%N.
Proof. test. Qed.

(** src/components/alarm.rs, [test_display] *)
Example test_display :
  let now := cal_dt_from_naive (date_time 2015 10 26 1 22 0) in let a := alarm_display (rs "test alarm with display") (TDateTime now) in
  get_action a = Some Display /\ option_map as_date_time (get_trigger a) = Some (Some now)
  /\ get_description a = Some (rs "test alarm with display").
Proof. test. Qed.

(** src/components/alarm.rs, [test_email] (ignored there because it ends in a [todo!]) *)
Example test_email :
  let now := cal_dt_from_naive (date_time 2015 10 26 1 22 0) in let a := alarm_email (rs "test alarm with email") (TDateTime now) (rs "important email") in
  get_action a = Some Email /\ option_map as_date_time (get_trigger a) = Some (Some now)
  /\ get_description a = Some (rs "test alarm with email") /\ get_summary a = Some (rs "important email").
Proof. test. Qed.

(** src/components/alarm.rs, [test_repeat_default] *)
Example test_repeat_default :
  prop_write (repeat_to_property 0) = Ret (rs "REPEAT:0\r\n").
Proof. test. Qed.

(** src/components/alarm.rs, [test_trigger] *)
Definition is_ret (o : outcome str) : bool := match o with Ret _ => true | _ => false end.
Example test_trigger :
  is_ret (prop_write (trigger_to_property (trigger_from_duration (14 * 7 * 86400 * 1000000000)%Z))) = true.
Proof. test. Qed.

(** src/components/alarm.rs, [test_trigger_abs_from_str], [test_trigger_abs_from_str_naive], [test_trigger_dur_from_str], [test_trigger_dur_from_str_start] *)
Example test_trigger_from_str :
  let now := cal_dt_from_naive (date_time 2022 11 17 21 32 45) in
  get_trigger (append_property inner_new (trigger_to_property (TDateTime now))) = Some (TDateTime now)
  /\ get_trigger (append_property inner_new (trigger_to_property (trigger_from_duration (minutes 15)))) = Some (TDuration (minutes 15) None)
  /\ get_trigger (append_property inner_new (trigger_to_property (trigger_from_pair (minutes 15, RStart)))) = Some (TDuration (minutes 15) (Some RStart)).
Proof. test. Qed.

(** src/components/alarm.rs, examples of [Trigger] *)
Example doc_triggers :
  let hour := minutes 60 in
  after_start hour = TDuration hour (Some RStart) /\ after_end hour = TDuration hour (Some REnd)
  /\ before_start hour = TDuration (- hour)%Z (Some RStart) /\ before_end hour = TDuration (- hour)%Z (Some REnd).
Proof. test. Qed.

(** src/components/date_time.rs, [try_from_utc_dt], [try_from_naive_date], [try_from_dt_with_tz], [try_from_dt_with_empty_tz], [try_from_floating_dt], [try_from_non_dt_prop] *)
Example try_from_dates :
  dpt_try_from (pro "TRIGGER" "20220716T141500Z" [par "VALUE" "DATE-TIME"]) = Some (DT (Utc (date_time 2022 7 16 14 15 0)))
  /\ dpt_try_from (pro "TRIGGER" "19970714" [par "VALUE" "DATE-TIME"]) = Some (DDate (mk_date 1997 7 14))
  /\ dpt_try_from (pro "TRIGGER" "20220716T141500" [par "VALUE" "DATE-TIME"; par "TZID" "MY-TZ-ID"]) = Some (DT (WithTimezone (date_time 2022 7 16 14 15 0) (rs "MY-TZ-ID")))
  /\ dpt_try_from_res (pro "TRIGGER" "20220716T141500" [par "VALUE" "DATE-TIME"; par0 "TZID"]) = Err (rs "Found empty TZID param.")
  /\ dpt_try_from (pro "TRIGGER" "20220716T141500" [par "VALUE" "DATE-TIME"]) = Some (DT (Floating (date_time 2022 7 16 14 15 0)))
  /\ dpt_try_from_res (pro "TZNAME" "CET" []) = Err (rs "Value does not look like a known DATE-TIME").
Proof. test. Qed.

(** src/calendar.rs, [calendar_extend_components], [calendar_extend_events] *)
Example calendar_extend :
  length (c_comps (cal_extend cal_new [CEvent inner_new; CEvent inner_new])) = 2.
Proof. test. Qed.

(** src/calendar.rs, [get_properties_unset], [get_properties_set], [get_properties_alternate], example of [empty] *)
Example calendar_get_properties :
  cal_get_name cal_new = None /\ cal_get_description cal_new = None /\ cal_get_timezone cal_new = None
  /\ (let c := cal_timezone (cal_description (cal_name cal_new (rs "name")) (rs "description")) (rs "timezone") in
      cal_get_name c = Some (rs "name") /\ cal_get_description c = Some (rs "description") /\ cal_get_timezone c = Some (rs "timezone"))
  /\ (let c := cal_append_property (cal_append_property (cal_append_property cal_new (prop_new (rs "X-WR-CALNAME") (rs "name")))
        (prop_new (rs "X-WR-CALDESC") (rs "description"))) (prop_new (rs "X-WR-TIMEZONE") (rs "timezone")) in
      cal_get_name c = Some (rs "name") /\ cal_get_description c = Some (rs "description") /\ cal_get_timezone c = Some (rs "timezone"))
  /\ c_props cal_empty = [].
Proof. test. Qed.

(** src/calendar.rs, [emit_parse_icalendar] *)
Example emit_parse_icalendar :
  match cal_write test_env (cal_append_property cal_new (prop_new (rs "FOOBAR") (rs "foobar"))) with
  | Ret s => rmap (fun c => cal_property_value c (rs "FOOBAR")) (calendar_from_str s) = Ok (Some (rs "foobar"))
  | _ => False end.
Proof. test. Qed.

(** src/components.rs, [get_url] *)
Example get_url_test :
  let e := url inner_new (rs "http://hoodie.de/") in
  get_url e = Some (rs "http://hoodie.de/")
  /\ match inner_write test_env (rs "VEVENT") e 0 with
     | Ret (s, _) => rmap (fun c => get_url (conv_inner c)) (read_component s) = Ok (Some (rs "http://hoodie.de/"))
     | _ => False end.
Proof. test. Qed.

(** src/components.rs, [get_properties_unset] *)
Example components_get_properties_unset :
  get_priority inner_new = None
  /\ get_summary inner_new = None
  /\ get_description inner_new = None
  /\ get_location inner_new = None
  /\ get_uid inner_new = None
  /\ get_class inner_new = None
  /\ get_timestamp inner_new = None
  /\ get_last_modified inner_new = None
  /\ get_created inner_new = None
  /\ get_url inner_new = None.
Proof. test. Qed.

(** src/components.rs, [get_properties_set] *)
Example components_get_properties_set :
  let e := url (set_class (uid (location (description (summary (priority inner_new 5) (rs "summary")) (rs "description")) (rs "location")) (rs "uid")) Private) (rs "http://some.test/url") in
  get_priority e = Some 5%N /\ get_summary e = Some (rs "summary") /\ get_description e = Some (rs "description") /\ get_location e = Some (rs "location")
  /\ get_uid e = Some (rs "uid") /\ get_class e = Some Private /\ get_url e = Some (rs "http://some.test/url").
Proof. test. Qed.

(** src/components.rs, [get_date_times_naive], [get_date_times_tzid], [get_dates_naive] *)
Example components_get_dates :
  let d := date_time 2001 3 13 14 15 16 in let z := WithTimezone d (rs "Pacific/Auckland") in
  let both x := ends (starts inner_new x) x in
  get_start (both (dpt_from_naive d)) = Some (dpt_from_naive d) /\ get_end (both (dpt_from_naive d)) = Some (dpt_from_naive d)
  /\ get_start (both (dpt_from_cal_dt z)) = Some (dpt_from_cal_dt z) /\ get_end (both (dpt_from_cal_dt z)) = Some (dpt_from_cal_dt z)
  /\ get_start (both (dpt_from_date (date_of d))) = Some (dpt_from_date (date_of d)) /\ get_end (both (dpt_from_date (date_of d))) = Some (dpt_from_date (date_of d)).
Proof. test. Qed.

(** src/components.rs, [get_date_times_utc] *)
Example components_get_date_times_utc :
  let d := date_time 2001 3 13 14 15 16 in let e := ends (starts (created (last_modified (timestamp inner_new d) d) d) (dpt_from_utc d)) (dpt_from_utc d) in
  get_timestamp e = Some d /\ get_last_modified e = Some d /\ get_created e = Some d /\ get_start e = Some (dpt_from_utc d) /\ get_end e = Some (dpt_from_utc d).
Proof. test. Qed.

(** src/properties.rs, [fold_line_short], [fold_line_folds_on_char_boundary] *)
Example fold_line_tests :
  fold_line (rs "This is a short line") = Ret (rs "This is a short line")
  /\ fold_line (rs "Content lines shouldn't be folded in the middle of a UTF-8 character. 老虎.")
     = Ret (rs "Content lines shouldn't be folded in the middle of a UTF-8 character. 老\r\n 虎.").
Proof. test. Qed.

(** src/properties.rs, [escape_special_characters_in_text], [escape_special_characters_in_serialized_property] *)
Example escape_special_characters :
  escape_text (rs "\n\\;,:") = raw "\N\\\;\,:"
  /\ prop_write (append_parameter (prop_new (rs "DESCRIPTION") (rs "\n\\;,:")) (rs "VALUE", rs "TEXT"))
     = Ret (rs "DESCRIPTION;VALUE=TEXT:" ++ raw "\N\\\;\,:" ++ rs "\r\n").
Proof. test. Qed.

(** src/properties.rs, [preserve_spaces] *)
Example preserve_spaces :
  obind (fold_line (rs "01234567890123456789012345678901234567890123456789012345HERE_COMES_A_SPACE( )")) (fun s => Ret (unfold s)) = Ret (rs "01234567890123456789012345678901234567890123456789012345HERE_COMES_A_SPACE( )")
  /\ obind (fold_line (rs "01234567890123456789012345678901234567890123456789012345HERE_COMES_A_SPACE( )<-----78901234567890123456789012345678901234567890123HERE_COMES_A_SPACE( )<---")) (fun s => Ret (unfold s)) = Ret (rs "01234567890123456789012345678901234567890123456789012345HERE_COMES_A_SPACE( )<-----78901234567890123456789012345678901234567890123HERE_COMES_A_SPACE( )<---").
Proof. test. Qed.

(** src/properties.rs, [serialize_property] *)
Example serialize_property :
  prop_write (prop_new (rs "SUMMARY") (rs "This is a summary")) = Ret (rs "SUMMARY:This is a summary\r\n").
Proof. test. Qed.

Definition alarm_expected : str := crlf_lines (raw "BEGIN:VCALENDAR
VERSION:2.0
PRODID:ICALENDAR-RS
CALSCALE:GREGORIAN
BEGIN:VTODO
DTSTAMP:19980130T134500Z
DTSTART:19980130T134500Z
DUE:19980415T000000
SEQUENCE:2
STATUS:NEEDS-ACTION
SUMMARY:Submit Income Taxes
UID:uid4@example.com
BEGIN:VALARM
ACTION:AUDIO
DTSTAMP:19980130T134500Z
DURATION:PT3600S
REPEAT:4
TRIGGER;VALUE=DATE-TIME:19980403T120000Z
UID:OverwriteForConsistency
END:VALARM
END:VTODO
END:VCALENDAR
").
(** tests/alarm.rs, [test_alarm_to_string] *)
Example test_alarm_to_string :
  let t := append_component (summary (todo_set_status (due (starts (sequence (add_property (uid inner_new (rs "uid4@example.com"))
      (rs "DTSTAMP") (rs "19980130T134500Z")) 2) (dpt_from_utc (date_time 1998 1 30 13 45 0))) (dpt_from_naive (date_time 1998 4 15 0 0 0)))
      NeedsAction) (rs "Submit Income Taxes"))
    (rs "VALARM", add_property (uid (duration_and_repeat (alarm_audio (TDateTime (Utc (date_time 1998 4 3 12 0 0)))) (minutes 60) 4)
      (rs "OverwriteForConsistency")) (rs "DTSTAMP") (rs "19980130T134500Z")) in
  cal_write test_env (cal_push cal_new (CTodo t)) = Ret alarm_expected /\ is_ok (calendar_from_str alarm_expected) = true.
Proof. test. Qed.

Definition calendar_expected : str := crlf_lines (raw "BEGIN:VCALENDAR
VERSION:2.0
PRODID:ICALENDAR-RS
CALSCALE:GREGORIAN
BEGIN:VEVENT
CLASS:CONFIDENTIAL
DESCRIPTION:Description
DTEND:20140709T091011Z
DTSTAMP:20190307T181159
DTSTART:20140708T071011Z
LOCATION:Somewhere
PRIORITY:10
STATUS:TENTATIVE
SUMMARY:summary
UID:euid
END:VEVENT
BEGIN:VTODO
COMPLETED:20140709T091011Z
DTSTAMP:20190307T181159
DUE:20140708T091011
PERCENT-COMPLETE:95
SUMMARY:A Todo
UID:todouid
END:VTODO
END:VCALENDAR
").
(** tests/calendar.rs, [test_calendar_to_string] *)
Example test_calendar_to_string :
  let e := add_property (set_class (uid (location (description (summary (priority (ends (starts (event_set_status inner_new Tentative)
      (dpt_from_utc (date_time 2014 7 8 7 10 11))) (dpt_from_utc (date_time 2014 7 9 9 10 11))) 11) (rs "summary")) (rs "Description")) (rs "Somewhere"))
      (rs "euid")) Confidential) (rs "DTSTAMP") (rs "20190307T181159") in
  let t := add_property (uid (summary (completed (due (percent_complete inner_new 95) (dpt_from_naive (date_time 2014 7 8 9 10 11)))
      (date_time 2014 7 9 9 10 11)) (rs "A Todo")) (rs "todouid")) (rs "DTSTAMP") (rs "20190307T181159") in
  cal_write test_env (cal_push (cal_push cal_new (CEvent e)) (CTodo t)) = Ret calendar_expected.
Proof. test. Qed.

Definition lorem : str := raw "Inventore quia saepe vero blanditiis recusandae corporis. Vel optio sit tempore aut. Recusandae dolorem minima perferendis aliquid molestiae occaecati odit. Sunt itaque soluta possimus. Commodi blanditiis dolorem culpa molestias doloribus magnam. Qui animi nulla eos at.
Praesentium quis beatae nihil quo accusamus consectetur recusandae. Aut quidem dicta natus consequatur aut. Rerum qui vero eaque voluptas perferendis consectetur autem.
Labore quo incidunt et aut et corrupti. Officiis quasi possimus optio. Doloribus repellendus laborum quisquam.
Maiores veritatis harum in neque nisi iusto. Quis velit fuga ullam accusantium sint. Voluptatem excepturi ut et qui et laboriosam et. Labore placeat quidem officiis fugit facilis ut ipsam quo. Voluptatibus ad aspernatur porro tempora dicta rerum sed dolore. Quo qui animi sunt culpa deserunt dolores modi.
Et dolorum doloribus et dolor omnis. Et amet voluptas error quis aliquid. Quia et ut sit ut.
Expedita sapiente atque reprehenderit pariatur excepturi fugiat aliquam dolorem. Laborum et totam accusantium ut. Rerum illum voluptatibus architecto fuga id minima. Omnis ipsum officiis aut sit. Saepe autem culpa debitis voluptas praesentium facilis.
Quos id quia voluptatem modi ut. Voluptas iusto facilis sed commodi. Facilis odit aut dignissimos vel est. Voluptate ut vel tempora rerum consequatur mollitia. Unde perferendis occaecati sit velit optio architecto alias aut. Voluptate facilis fuga voluptatibus.
Placeat voluptas earum quibusdam et. Et ea tempore enim natus autem. Dolor aperiam voluptates eum aliquid. Consectetur quia necessitatibus exercitationem velit repudiandae cum eius.
Quas vero velit dolores quaerat. Eos molestias est inventore. Quis quis perspiciatis error saepe est eaque eligendi quo.
Et magni est eveniet maiores nam aliquid. Cupiditate alias quis explicabo. Quam qui facere est voluptas. Voluptatem nesciunt corrupti architecto fuga pariatur commodi dicta qui. Laudantium nobis repudiandae animi non.".
(** tests/folding_consistency.rs, [test_folding_consistency] *)
Definition folding_cal : calendar := cal_from_iter [CEvent (ends (set_class (starts (uid (timestamp (description (summary inner_new (rs "test event")) lorem)
  (date_time 2024 6 1 12 0 0)) (rs "1234")) (dpt_from_utc (date_time 2024 6 1 12 0 0))) Confidential) (dpt_from_utc (date_time 2024 6 2 12 0 0)))].
Example test_folding_consistency :
  let s1 := ret_or_nil (cal_write test_env folding_cal) in
  calendar_from_str s1 = Ok folding_cal /\ cal_write test_env folding_cal = Ret s1 /\ s1 <> [].
Proof. vm_compute. split; [|split]; [reflexivity|reflexivity|discriminate]. Qed.

(** tests/full_circle.rs, [escape_late], [unescape_text], [reparse_equivalence] *)
Definition circle_summary : str := rs ";IMPORTANCE=very;test event".
Definition circle_description : str := rs "this, contains: many escapeworthy->\n<-;characters".
Definition circle_event : inner := uid (append_property (ends (set_class (starts (description (summary inner_new circle_summary) circle_description)
    (dpt_from_utc (date_time 2024 6 1 12 0 0))) Confidential) (dpt_from_utc (date_time 2024 6 2 12 0 0)))
  (append_parameter (append_parameter (append_parameter (prop_new (rs "TEST") (rs "FOOBAR")) (rs "IMPORTANCE", rs "very"))
    (rs "COMPLEX", rs "this is code; I think")) (rs "keyval", rs "color:red"))) (rs "my.own.id").
Definition circle_cal : calendar := cal_push (cal_push cal_new (CEvent circle_event)) (CTodo (summary inner_new (rs "Buy some: milk"))).
Definition first_event {T} (f : inner -> option T) (c : calendar) : option T :=
  match c_comps c with x :: _ => match as_event x with Some i => f i | None => None end | [] => None end.
Example full_circle :
  match cal_write test_env circle_cal with
  | Ret s => match calendar_from_str s with
             | Ok c => first_event get_summary circle_cal = Some circle_summary /\ first_event get_description circle_cal = Some circle_description
                 /\ first_event get_summary c = Some circle_summary /\ first_event get_description c = Some circle_description
             | _ => False end
  | _ => False end.
Proof. test. Qed.

Definition reserialize_sample : str := crlf_lines (raw "BEGIN:VCALENDAR
VERSION:2.0
PRODID:ICALENDAR-RS
CALSCALE:GREGORIAN
BEGIN:VEVENT
CLASS:CONFIDENTIAL
DESCRIPTION:Description
DTEND:20140709T091011Z
DTSTAMP:20190307T181159
DTSTART:20140708T071011Z
LOCATION:Somewhere
PRIORITY:10
STATUS:TENTATIVE
SUMMARY:summary
UID:euid
END:VEVENT
BEGIN:VTODO
COMPLETED:20140709T091011Z
DTSTAMP:20190307T181159
DUE:20140708T091011
PERCENT-COMPLETE:95
SUMMARY:A Todo
UID:todouid
END:VTODO
BEGIN:VALARM
TRIGGER;RELATED=END:-P2D
ACTION:EMAIL
ATTENDEE:""mailto:john_doe@example.com""
SUMMARY:*** REMINDER: SEND AGENDA FOR WEEKLY STAFF MEETING ***
DESCRIPTION:A draft agenda needs to be sent out to the attendees to the wee
 kly managers meeting (MGR-LIST). Attached is a pointer the document templa
 te for the agenda file.
ATTACH;FMTTYPE=application/msword:http://example.com/templates/agenda.doc
END:VALARM
END:VCALENDAR
").
(** tests/reserialize.rs, [reserialization] *)
Example reserialization :
  rmap (pcal_write test_env) (read_calendar (unfold reserialize_sample)) = Ok (Ret reserialize_sample).
Proof. test. Qed.

(** tests/try_into_string.rs, [try_into_string] *)
Example try_into_string :
  is_ret (cal_write test_env (cal_push cal_new (CEvent (description (summary (ends (starts inner_new (dpt_from_date (mk_date 2016 3 15)))
    (dpt_from_date (mk_date 2016 3 15))) (rs "My Birthday")) (rs "Hey, I'm gonna have a party\nBYOB: Bring your own beer.\nHendrik"))))) = true.
Proof. test. Qed.

(** fixtures/empty.ics *)
Definition fixture_empty : str := raw "BEGIN:VEVENT
END:VEVENT
".
(** fixtures/icalendar-rb-bad-utf8/bad_wrapping.ics *)
Definition fixture_bad_wrapping : str := crlf_lines (raw "BEGIN:VCALENDAR
VERSION:2.0
PRODID:manual
CALSCALE:GREGORIAN
BEGIN:VEVENT
DTSTAMP:20200902T223352Z
UID:6e7d7fe5-6735-4cdd-bfe4-761dfcecd7a7
DTSTART;VALUE=DATE:20200902
DTEND;VALUE=DATE:20200903
DESCRIPTION:Event description that puts a UTF-8 multi-octet sequence right�
 �here.
SUMMARY:UTF-8 multi-octet sequence test
END:VEVENT
END:VCALENDAR
").
(** fixtures/icalendar-rb/custom_component.ics *)
Definition fixture_custom_component : str := raw "BEGIN:VCALENDAR
PRODID:-//Atlassian Confluence//Calendar Plugin 1.0//EN
VERSION:2.0
CALSCALE:GREGORIAN
X-WR-CALNAME:Grimsell testkalender
X-WR-CALDESC:
X-WR-TIMEZONE:Europe/Stockholm
X-MIGRATED-FOR-USER-KEY:true
METHOD:PUBLISH
BEGIN:VTIMEZONE
TZID:Europe/Stockholm
TZURL:http://tzurl.org/zoneinfo/Europe/Stockholm
SEQUENCE:9206
BEGIN:DAYLIGHT
TZOFFSETFROM:+0100
TZOFFSETTO:+0200
TZNAME:CEST
DTSTART:19810329T020000
RRULE:FREQ=YEARLY;BYMONTH=3;BYDAY=-1SU
END:DAYLIGHT
BEGIN:STANDARD
TZOFFSETFROM:+0200
TZOFFSETTO:+0100
TZNAME:CET
DTSTART:19961027T030000
RRULE:FREQ=YEARLY;BYMONTH=10;BYDAY=-1SU
END:STANDARD
BEGIN:STANDARD
TZOFFSETFROM:+011212
TZOFFSETTO:+010014
TZNAME:SET
DTSTART:18790101T000000
RDATE:18790101T000000
END:STANDARD
BEGIN:STANDARD
TZOFFSETFROM:+010014
TZOFFSETTO:+0100
TZNAME:CET
DTSTART:19000101T000000
RDATE:19000101T000000
END:STANDARD
BEGIN:DAYLIGHT
TZOFFSETFROM:+0100
TZOFFSETTO:+0200
TZNAME:CEST
DTSTART:19160514T230000
RDATE:19160514T230000
RDATE:19800406T020000
END:DAYLIGHT
BEGIN:STANDARD
TZOFFSETFROM:+0200
TZOFFSETTO:+0100
TZNAME:CET
DTSTART:19161001T010000
RDATE:19161001T010000
RDATE:19800928T030000
RDATE:19810927T030000
RDATE:19820926T030000
RDATE:19830925T030000
RDATE:19840930T030000
RDATE:19850929T030000
RDATE:19860928T030000
RDATE:19870927T030000
RDATE:19880925T030000
RDATE:19890924T030000
RDATE:19900930T030000
RDATE:19910929T030000
RDATE:19920927T030000
RDATE:19930926T030000
RDATE:19940925T030000
RDATE:19950924T030000
END:STANDARD
BEGIN:STANDARD
TZOFFSETFROM:+0100
TZOFFSETTO:+0100
TZNAME:CET
DTSTART:19800101T000000
RDATE:19800101T000000
END:STANDARD
END:VTIMEZONE
BEGIN:VEVENT
DTSTAMP:20151203T104347Z
SUMMARY:Kaffepaus
UID:20151203T101856Z-1543254179@intranet.idainfront.se
DESCRIPTION:
ORGANIZER;X-CONFLUENCE-USER-KEY=ff80818141e4d3b60141e4d4b75700a2;CN=Magnu
 s Grimsell;CUTYPE=INDIVIDUAL:mailto:magnus.grimsell@idainfront.se
CREATED:20151203T101856Z
LAST-MODIFIED:20151203T101856Z
SEQUENCE:1
X-CONFLUENCE-SUBCALENDAR-TYPE:other
TRANSP:OPAQUE
STATUS:CONFIRMED
DTSTART:20151203T090000Z
DTEND:20151203T091500Z
END:VEVENT
BEGIN:X-EVENT-SERIES
SUMMARY:iipax - Sprints
DESCRIPTION:
X-CONFLUENCE-SUBCALENDAR-TYPE:jira-agile-sprint
URL:jira://8112ef9a-343e-30e6-b469-4f993bf0371d?projectKey=II&dateFieldNa
 me=sprint
END:X-EVENT-SERIES
BEGIN:VEVENT
DTSTAMP:20151203T104348Z
DTSTART;TZID=Europe/Stockholm:20130115T170800
DTEND;TZID=Europe/Stockholm:20130204T170800
UID:3cb4df4b-eb18-43fd-934a-16c15acfb4b1-3@jira.idainfront.se
X-GREENHOPPER-SPRINT-CLOSED:false
X-GREENHOPPER-SPRINT-EDITABLE:true
X-JIRA-PROJECT;X-JIRA-PROJECT-KEY=II:iipax
X-GREENHOPPER-SPRINT-VIEWBOARDS-URL:https://jira.idainfront.se/secure/GHG
 oToBoard.jspa?sprintId=3
SEQUENCE:0
X-CONFLUENCE-SUBCALENDAR-TYPE:jira-agile-sprint
TRANSP:OPAQUE
STATUS:CONFIRMED
DESCRIPTION:https://jira.idainfront.se/secure/GHGoToBoard.jspa?sprintId=3

SUMMARY:iipax - Callisto-6
END:VEVENT
BEGIN:VEVENT
DTSTAMP:20151203T104348Z
DTSTART;TZID=Europe/Stockholm:20130219T080000
DTEND;TZID=Europe/Stockholm:20130319T095900
UID:3cb4df4b-eb18-43fd-934a-16c15acfb4b1-5@jira.idainfront.se
X-GREENHOPPER-SPRINT-CLOSED:false
X-GREENHOPPER-SPRINT-EDITABLE:true
X-JIRA-PROJECT;X-JIRA-PROJECT-KEY=II:iipax
X-GREENHOPPER-SPRINT-VIEWBOARDS-URL:https://jira.idainfront.se/secure/GHG
 oToBoard.jspa?sprintId=5
SEQUENCE:0
X-CONFLUENCE-SUBCALENDAR-TYPE:jira-agile-sprint
TRANSP:OPAQUE
STATUS:CONFIRMED
DESCRIPTION:https://jira.idainfront.se/secure/GHGoToBoard.jspa?sprintId=5

SUMMARY:iipax - Bulbasaur
END:VEVENT
BEGIN:VEVENT
DTSTAMP:20151203T104348Z
DTSTART;TZID=Europe/Stockholm:20130326T105900
DTEND;TZID=Europe/Stockholm:20130419T105900
UID:3cb4df4b-eb18-43fd-934a-16c15acfb4b1-7@jira.idainfront.se
X-GREENHOPPER-SPRINT-CLOSED:true
X-GREENHOPPER-SPRINT-EDITABLE:true
X-JIRA-PROJECT;X-JIRA-PROJECT-KEY=II:iipax
X-GREENHOPPER-SPRINT-VIEWBOARDS-URL:https://jira.idainfront.se/secure/GHG
 oToBoard.jspa?sprintId=7
SEQUENCE:0
X-CONFLUENCE-SUBCALENDAR-TYPE:jira-agile-sprint
TRANSP:OPAQUE
STATUS:CONFIRMED
DESCRIPTION:https://jira.idainfront.se/secure/GHGoToBoard.jspa?sprintId=7

SUMMARY:iipax - Ivysaur
END:VEVENT
END:VCALENDAR
".
(** fixtures/icalendar-rb/event.ics *)
Definition fixture_event : str := raw "BEGIN:VEVENT
DTSTAMP:20050118T211523Z
UID:bsuidfortestabc123
DTSTART;TZID=US-Mountain:20050120T170000
DTEND;TZID=US-Mountain:20050120T184500
CLASS:PRIVATE
GEO:37.386013;-122.0829322
ORGANIZER:mailto:joebob@random.net
PRIORITY:2
SUMMARY:This is a really long summary to test the method of unfolding lines
 \, so I'm just going to make it a whole bunch of lines.
ATTACH:http://bush.sucks.org/impeach/him.rhtml
ATTACH:http://corporations-dominate.existence.net/why.rhtml
RDATE;TZID=US-Mountain:20050121T170000,20050122T170000
X-TEST-COMPONENT;QTEST=""Hello, World"":Shouldn't double double quotes
END:VEVENT

".
(** fixtures/icalendar-rb/nondefault_values.ics *)
Definition fixture_nondefault_values : str := raw "BEGIN:VCALENDAR
VERSION:2.0
CALSCALE:GREGORIAN
PRODID:iCalendar-Ruby
X-WR-CALNAME:Test Long Description
BEGIN:VEVENT
DESCRIPTION:FULL DETAILS:\nhttp://test.com/events/570\n\nCary Brothers walk
 s the same musical ground as Pete Yorn\, Nick Drake\, Jeff Buckley and othe
 rs\; crafting emotional melodies\, with strong vocals and thoughtful lyrics
 . Brett Dennen has &quot\;that thing.&quot\; Inspired fans describe it: &qu
 ot\;lush shimmering vocals\, an intricately groovin&#39\; guitar style\, a 
 lyrical beauty rare in a young songwriter\,&quot\; and &quot\;this soulful 
 blend of everything that feels good.&quot\; Rising up around him is music\;
  transcending genres\, genders and generations.
DTEND;VALUE=DATE:20061215
DTSTAMP:20061215T114034
DTSTART;VALUE=DATE:20061215
SEQUENCE:1001
SUMMARY:DigiWorld 2006
UID:foobar
URL:http://test.com/events/644
END:VEVENT
END:VCALENDAR
".
(** fixtures/icalendar-rb/nonstandard.ics *)
Definition fixture_nonstandard : str := raw "BEGIN:VCALENDAR
VERSION:2.0
PRODID:bsprodidfortestabc123
BEGIN:VEVENT
UID:bsuidfortestabc123
ORGANIZER:mailto:joebob@random.net
ATTACH:http://bush.sucks.org/impeach/him.rhtml
ATTACH:http://corporations-dominate.existence.net/why.rhtml
SUMMARY:This is a really long summary
  to test the method of unfolding lines\,
  so I'm just going to ma
 ke it
  a whol
 e
  bunch of lines.
CLASS:PRIVATE
PRIORITY:2
CUSTOMFIELD:Not properly noted as custom with X- prefix.
GEO:37.386013;-122.0829322
DTSTART;TZID=US-Mountain:20050120T170000
DTEND:20050120T184500
DTSTAMP:20050118T211523Z
NAME:SomeName
END:VEVENT
END:VCALENDAR
".
(** fixtures/icalendar-rb/recurrence.ics *)
Definition fixture_recurrence : str := crlf_lines (raw "BEGIN:VCALENDAR
VERSION:2.0
PRODID:bsprodidfortestabc123
CALSCALE:GREGORIAN
BEGIN:VEVENT
DTSTAMP:20050118T211523Z
UID:bsuidfortestabc123
DTSTART;VALUE=DATE:20050323
DTEND;VALUE=DATE:20050323
CLASS:PRIVATE
ORGANIZER:mailto:joebob@random.net
PRIORITY:2
SUMMARY:This is a really long summary to test the method of unfolding lines
 \, so I'm just going to make it a whole bunch of lines.
EXDATE;VALUE=DATE:20120323,20130323
RRULE:FREQ=YEARLY
END:VEVENT
END:VCALENDAR
").
(** fixtures/icalendar-rb/single_event.ics *)
Definition fixture_single_event : str := crlf_lines (raw "BEGIN:VCALENDAR
VERSION:2.0
PRODID:bsprodidfortestabc123
CALSCALE:GREGORIAN
BEGIN:VEVENT
DTSTAMP:20050118T211523Z
UID:bsuidfortestabc123
DTSTART;TZID=US-Mountain:20050120T170000
DTEND;TZID=US-Mountain:20050120T184500
CLASS:PRIVATE
GEO:37.386013;-122.0829322
ORGANIZER;CN=""Joe Bob: Magician"":mailto:joebob@random.net
PRIORITY:2
SUMMARY:This is a really long summary to test the method of unfolding lines
 \, so I'm just going to make it a whole bunch of lines. With a twist: a ""
 ö"" takes up multiple bytes\, and should be wrapped to the next line.
ATTACH:http://bush.sucks.org/impeach/him.rhtml
ATTACH:http://corporations-dominate.existence.net/why.rhtml
RDATE;TZID=US-Mountain:20050121T170000,20050122T170000
X-TEST-COMPONENT;QTEST=""Hello, World"":Shouldn't double double quotes
END:VEVENT
END:VCALENDAR
").
(** fixtures/icalendar-rb/single_event_bad_dtstart.ics *)
Definition fixture_single_event_bad_dtstart : str := crlf_lines (raw "BEGIN:VCALENDAR
VERSION:2.0
PRODID:bsprodidfortestabc123
CALSCALE:GREGORIAN
BEGIN:VEVENT
DTSTAMP:20050118T211523Z
UID:bsuidfortestabc123
DTSTART:20050120
DTEND;TZID=US-Mountain:20050120T184500
CLASS:PRIVATE
GEO:37.386013;-122.0829322
ORGANIZER:mailto:joebob@random.net
PRIORITY:2
SUMMARY:This is a really long summary to test the method of unfolding lines
 \, so I'm just going to make it a whole bunch of lines.
ATTACH:http://bush.sucks.org/impeach/him.rhtml
ATTACH:http://corporations-dominate.existence.net/why.rhtml
RDATE;TZID=US-Mountain:20050121T170000,20050122T170000
X-TEST-COMPONENT;QTEST=""Hello, World"":Shouldn't double double quotes
END:VEVENT
END:VCALENDAR
").
(** fixtures/icalendar-rb/single_event_bad_line.ics *)
Definition fixture_single_event_bad_line : str := crlf_lines (raw "BEGIN:VCALENDAR
VERSION:2.0
PRODID:bsprodidfortestabc123
CALSCALE:GREGORIAN
BEGIN:VEVENT
DTSTAMP:20050118T211523Z
UID:bsuidfortestabc123
DTSTART;TZID=US-Mountain:20050120T170000
DTEND;TZID=US-Mountain:20050120T184500
CLASS:PRIVATE
GEO:37.386013;-122.0829322
ORGANIZER:mailto:joebob@random.net
PRIORITY:2
SUMMARY:This is a really long summary to test the method of unfolding lines
 \, so I'm just going to make it a whole bunch of lines.
ATTACH:http://bush.sucks.org/impeach/him.rhtml
ATTACH:http://corporations-dominate.existence.net/why.rhtml
RDATE;TZID=US-Mountain:20050121T170000,20050122T170000
X-TEST-COMPONENT;QTEST=""Hello, World"":Shouldn't double double quotes
X-NO-VALUE
END:VEVENT
END:VCALENDAR
").
(** fixtures/icalendar-rb/single_event_bad_organizer.ics *)
Definition fixture_single_event_bad_organizer : str := crlf_lines (raw "BEGIN:VCALENDAR
VERSION:2.0
PRODID:bsprodidfortestabc123
CALSCALE:GREGORIAN
BEGIN:VEVENT
DTSTAMP:20050118T211523Z
UID:bsuidfortestabc123
DTSTART;TZID=US-Mountain:20050120T170000
DTEND;TZID=US-Mountain:20050120T184500
CLASS:PRIVATE
GEO:37.386013;-122.0829322
ORGANIZER;CN=Joe Bob\: Magician:mailto:joebob@random.net
PRIORITY:2
SUMMARY:This is a really long summary to test the method of unfolding lines
 \, so I'm just going to make it a whole bunch of lines. With a twist: a ""
 ö"" takes up multiple bytes\, and should be wrapped to the next line.
ATTACH:http://bush.sucks.org/impeach/him.rhtml
ATTACH:http://corporations-dominate.existence.net/why.rhtml
RDATE;TZID=US-Mountain:20050121T170000,20050122T170000
X-TEST-COMPONENT;QTEST=""Hello, World"":Shouldn't double double quotes
END:VEVENT
END:VCALENDAR
").
(** fixtures/icalendar-rb/single_event_organizer_parsed.ics *)
Definition fixture_single_event_organizer_parsed : str := crlf_lines (raw "BEGIN:VCALENDAR
VERSION:2.0
PRODID:bsprodidfortestabc123
CALSCALE:GREGORIAN
BEGIN:VEVENT
DTSTAMP:20050118T211523Z
UID:bsuidfortestabc123
DTSTART;TZID=US-Mountain:20050120T170000
DTEND;TZID=US-Mountain:20050120T184500
CLASS:PRIVATE
GEO:37.386013;-122.0829322
ORGANIZER;CN=Joe Bob\:magician:mailto:joebob@random.net
PRIORITY:2
SUMMARY:This is a really long summary to test the method of unfolding lines
 \, so I'm just going to make it a whole bunch of lines. With a twist: a ""
 ö"" takes up multiple bytes\, and should be wrapped to the next line.
ATTACH:http://bush.sucks.org/impeach/him.rhtml
ATTACH:http://corporations-dominate.existence.net/why.rhtml
RDATE;TZID=US-Mountain:20050121T170000,20050122T170000
X-TEST-COMPONENT;QTEST=""Hello, World"":Shouldn't double double quotes
END:VEVENT
END:VCALENDAR
").
(** fixtures/icalendar-rb/timezone.ics *)
Definition fixture_timezone : str := crlf_lines (raw "BEGIN:VCALENDAR
VERSION:2.0
PRODID:icalendar-ruby
CALSCALE:GREGORIAN
BEGIN:VTIMEZONE
TZID:America/New_York
BEGIN:DAYLIGHT
DTSTART:20070311T020000
TZOFFSETFROM:-0500
TZOFFSETTO:-0400
RRULE:FREQ=YEARLY;BYDAY=2SU;BYMONTH=3
TZNAME:EDT
END:DAYLIGHT
BEGIN:STANDARD
DTSTART:20071104T020000
TZOFFSETFROM:-0400
TZOFFSETTO:-0500
RRULE:FREQ=YEARLY;BYDAY=1SU;BYMONTH=11
TZNAME:EST
END:STANDARD
END:VTIMEZONE
BEGIN:VEVENT
DTSTAMP:20120320T014112Z
UID:9B9CB907-F25F-4D27-B6F3-6DE3A3397BC2
DTSTART;TZID=America/New_York:20120323T190000
DTEND;TZID=America/New_York:20120323T230000
CREATED:20120312T191609Z
LAST-MODIFIED:20120320T014105Z
LOCATION:Baltimore
SEQUENCE:0
STATUS:CONFIRMED
SUMMARY:Eastern Event
TRANSP:OPAQUE
END:VEVENT
END:VCALENDAR
").
(** fixtures/icalendar-rb/two_date_time_events.ics *)
Definition fixture_two_date_time_events : str := crlf_lines (raw "BEGIN:VCALENDAR
METHOD:PUBLISH
VERSION:2.0
X-WR-CALNAME:TMP
PRODID:-//Apple Inc.//Mac OS X 10.9.4//EN
X-APPLE-CALENDAR-COLOR:#0E61B9
X-WR-TIMEZONE:America/New_York
CALSCALE:GREGORIAN
BEGIN:VTIMEZONE
TZID:America/New_York
BEGIN:DAYLIGHT
TZOFFSETFROM:-0500
RRULE:FREQ=YEARLY;BYMONTH=3;BYDAY=2SU
DTSTART:20070311T020000
TZNAME:EDT
TZOFFSETTO:-0400
END:DAYLIGHT
BEGIN:STANDARD
TZOFFSETFROM:-0400
RRULE:FREQ=YEARLY;BYMONTH=11;BYDAY=1SU
DTSTART:20071104T020000
TZNAME:EST
TZOFFSETTO:-0500
END:STANDARD
END:VTIMEZONE
BEGIN:VEVENT
STATUS:CONFIRMED
CREATED:20140731T162556Z
UID:7C4A5440-ABA5-4B32-A69D-AFD243B39FE1
DTEND;TZID=America/New_York:20140714T100000
TRANSP:OPAQUE
SUMMARY:9am
LAST-MODIFIED:20140731T162556Z
DTSTAMP:20140731T164042Z
DTSTART;TZID=America/New_York:20140714T090000
LOCATION:
SEQUENCE:13
BEGIN:VALARM
X-WR-ALARMUID:6F54CD66-F2A9-491D-8892-7E3209F6A2E4
UID:6F54CD66-F2A9-491D-8892-7E3209F6A2E4
TRIGGER;VALUE=DATE-TIME:19760401T005545Z
ACTION:NONE
END:VALARM
END:VEVENT
BEGIN:VEVENT
STATUS:CONFIRMED
CREATED:20140731T162556Z
UID:A50FA12F-BCA9-4822-A61D-E86EB7440A16
DTEND;VALUE=DATE:20140715
TRANSP:TRANSPARENT
SUMMARY:All Day
LAST-MODIFIED:20140731T162556Z
DTSTAMP:20140731T164829Z
DTSTART;VALUE=DATE:20140714
LOCATION:
SEQUENCE:18
BEGIN:VALARM
X-WR-ALARMUID:295F2CF7-1C48-4E76-A8FC-718A1EBEDB76
UID:295F2CF7-1C48-4E76-A8FC-718A1EBEDB76
TRIGGER;VALUE=DATE-TIME:19760401T005545Z
ACTION:NONE
END:VALARM
END:VEVENT
END:VCALENDAR
").
(** fixtures/icalendar-rb/two_day_events.ics *)
Definition fixture_two_day_events : str := crlf_lines (raw "BEGIN:VCALENDAR
METHOD:PUBLISH
VERSION:2.0
X-WR-CALNAME:TMP
PRODID:-//Apple Inc.//Mac OS X 10.9.4//EN
X-APPLE-CALENDAR-COLOR:#0E61B9
X-WR-TIMEZONE:America/New_York
CALSCALE:GREGORIAN
BEGIN:VEVENT
STATUS:CONFIRMED
CREATED:20140731T162556Z
UID:A50FA12F-BCA9-4822-A61D-E86EB7440A16
DTEND;VALUE=DATE:20140715
TRANSP:TRANSPARENT
SUMMARY:Monday
LAST-MODIFIED:20140731T162556Z
DTSTAMP:20140731T162628Z
DTSTART;VALUE=DATE:20140714
LOCATION:
SEQUENCE:3
END:VEVENT
BEGIN:VEVENT
STATUS:CONFIRMED
CREATED:20140731T162556Z
UID:7C4A5440-ABA5-4B32-A69D-AFD243B39FE1
DTEND;VALUE=DATE:20140714
TRANSP:TRANSPARENT
SUMMARY:Sunday
LAST-MODIFIED:20140731T162556Z
DTSTAMP:20140731T162611Z
DTSTART;VALUE=DATE:20140713
LOCATION:
SEQUENCE:5
END:VEVENT
END:VCALENDAR
").
(** fixtures/icalendar-rb/two_events.ics *)
Definition fixture_two_events : str := raw "BEGIN:VEVENT
DTSTAMP:20050118T211523Z
UID:bsuidfortestabc123
DTSTART;TZID=US-Mountain:20050120T170000
DTEND;TZID=US-Mountain:20050120T184500
CLASS:PRIVATE
GEO:37.386013;-122.0829322
ORGANIZER:mailto:joebob@random.net
PRIORITY:2
SUMMARY:This is a really long summary to test the method of unfolding lines
 \, so I'm just going to make it a whole bunch of lines.
ATTACH:http://bush.sucks.org/impeach/him.rhtml
ATTACH:http://corporations-dominate.existence.net/why.rhtml
RDATE;TZID=US-Mountain:20050121T170000,20050122T170000
X-TEST-COMPONENT;QTEST=""Hello, World"":Shouldn't double double quotes
END:VEVENT
BEGIN:VEVENT
DTSTAMP:20110118T211523Z
UID:uid-1234-uid-4321
DTSTART;TZID=US-Mountain:20110120T170000
DTEND;TZID=US-Mountain:20110120T184500
CLASS:PRIVATE
GEO:37.386013;-122.0829322
ORGANIZER:mailto:jmera@jmera.human
PRIORITY:2
SUMMARY:This is a very short summary.
RDATE;TZID=US-Mountain:20110121T170000,20110122T170000
END:VEVENT
".
(** fixtures/icalendar-rb/two_time_events.ics *)
Definition fixture_two_time_events : str := crlf_lines (raw "BEGIN:VCALENDAR
METHOD:PUBLISH
VERSION:2.0
X-WR-CALNAME:TMP
PRODID:-//Apple Inc.//Mac OS X 10.9.4//EN
X-APPLE-CALENDAR-COLOR:#0E61B9
X-WR-TIMEZONE:America/New_York
CALSCALE:GREGORIAN
BEGIN:VTIMEZONE
TZID:America/New_York
BEGIN:DAYLIGHT
TZOFFSETFROM:-0500
RRULE:FREQ=YEARLY;BYMONTH=3;BYDAY=2SU
DTSTART:20070311T020000
TZNAME:EDT
TZOFFSETTO:-0400
END:DAYLIGHT
BEGIN:STANDARD
TZOFFSETFROM:-0400
RRULE:FREQ=YEARLY;BYMONTH=11;BYDAY=1SU
DTSTART:20071104T020000
TZNAME:EST
TZOFFSETTO:-0500
END:STANDARD
END:VTIMEZONE
BEGIN:VEVENT
STATUS:CONFIRMED
CREATED:20140731T162556Z
UID:7C4A5440-ABA5-4B32-A69D-AFD243B39FE1
DTEND;TZID=America/New_York:20140714T100000
TRANSP:OPAQUE
SUMMARY:9am
LAST-MODIFIED:20140731T162556Z
DTSTAMP:20140731T164042Z
DTSTART;TZID=America/New_York:20140714T090000
LOCATION:
SEQUENCE:13
BEGIN:VALARM
X-WR-ALARMUID:6F54CD66-F2A9-491D-8892-7E3209F6A2E4
UID:6F54CD66-F2A9-491D-8892-7E3209F6A2E4
TRIGGER;VALUE=DATE-TIME:19760401T005545Z
ACTION:NONE
END:VALARM
END:VEVENT
BEGIN:VEVENT
STATUS:CONFIRMED
CREATED:20140731T162556Z
UID:A50FA12F-BCA9-4822-A61D-E86EB7440A16
DTEND;TZID=America/New_York:20140714T095900
TRANSP:OPAQUE
SUMMARY:9:01-9:59
LAST-MODIFIED:20140731T162556Z
DTSTAMP:20140731T164405Z
DTSTART;TZID=America/New_York:20140714T090100
LOCATION:
SEQUENCE:16
BEGIN:VALARM
X-WR-ALARMUID:295F2CF7-1C48-4E76-A8FC-718A1EBEDB76
UID:295F2CF7-1C48-4E76-A8FC-718A1EBEDB76
TRIGGER;VALUE=DATE-TIME:19760401T005545Z
ACTION:NONE
END:VALARM
END:VEVENT
END:VCALENDAR
").
(** fixtures/icalendar-rb/tzid_search.ics *)
Definition fixture_tzid_search : str := raw "BEGIN:VCALENDAR
METHOD:PUBLISH
VERSION:2.0
CALSCALE:GREGORIAN
BEGIN:VTIMEZONE
TZID:(GMT-05:00) Eastern Time (US & Canada)
BEGIN:STANDARD
DTSTART:16011104T010000
RRULE:FREQ=YEARLY;BYDAY=1SU;BYMONTH=11
TZOFFSETFROM:-0400
TZOFFSETTO:-0500
END:STANDARD
BEGIN:DAYLIGHT
DTSTART:16010311T030000
RRULE:FREQ=YEARLY;BYDAY=2SU;BYMONTH=3
TZOFFSETFROM:-0500
TZOFFSETTO:-0400
END:DAYLIGHT
END:VTIMEZONE
BEGIN:VEVENT
CREATED:20120104T225934Z
UID:23D50AF6-23D4-4CB5-85C6-4826F3F19999
DTEND;TZID=""(GMT-05:00) Eastern Time (US & Canada)"":20180104T130000
RRULE:FREQ=WEEKLY;INTERVAL=1
TRANSP:OPAQUE
SUMMARY:Recurring on Wed
DTSTART;TZID=""(GMT-05:00) Eastern Time (US & Canada)"":20180104T100000
DTSTAMP:20120104T231637Z
SEQUENCE:6
END:VEVENT
END:VCALENDAR
".
(** tests/parse_fixtures.rs, [parse_fixtures_root], [parse_fixtures_icalendar_rb], [parse_fixtures_icalendar_rb_bad_utf8] *)
Example parse_fixtures :
  forallb (fun s => is_ok (read_calendar (unfold s))) [fixture_empty; fixture_bad_wrapping; fixture_custom_component; fixture_event; fixture_nondefault_values; fixture_nonstandard; fixture_recurrence; fixture_single_event; fixture_single_event_bad_dtstart; fixture_single_event_bad_line; fixture_single_event_bad_organizer; fixture_single_event_organizer_parsed; fixture_timezone; fixture_two_date_time_events; fixture_two_day_events; fixture_two_events; fixture_two_time_events; fixture_tzid_search] = true.
Proof. test. Qed.

End Tests.