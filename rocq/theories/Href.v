(** Model of the example program libhext/examples/extract-href.cpp. *)

From Coq Require Import Ascii String NArith ZArith Bool List.
From Verif Require Import Base StringUtil Tags Dom Values Match Rule RuleMatching Convert.
Import ListNotations.
Open Scope outcome_scope.

(** Poco::URI (external): parsing a string, and the text of the URI that results
    from resolving a string against another one. Both may throw. *)
Record uri_library := mk_uris {
  uri : Type;
  parse_uri : str -> fres uri;
  resolve_uri : uri -> str -> fres str
}.

(** The value of the attribute href, as in extract-href.cpp 47-56 and 76-84. *)
Definition href_of (d : node) (p : npath) : option str :=
  match nget d p with
  | Some (NElement _ _ attrs _) =>
      match gumbo_get_attribute attrs (s "href") with
      | Some a => match a_value a with Some v => Some (c_str v) | None => None end
      | None => None
      end
  | _ => None
  end.

(** HrefCapture::capture, extract-href.cpp 45-60. *)
Definition HrefCapture_capture (U : uri_library) (base : uri U) (d : node) (p : npath) : fres (option result_pair) :=
  match href_of d p with
  | None => FReturn None
  | Some v => match resolve_uri U base v with
              | FReturn x => FReturn (Some (s "href", x))
              | FThrow => FThrow
              end
  end.

(** has_useful_href, extract-href.cpp 71-96. *)
Definition has_useful_href : match_function := fun d p =>
  match href_of d p with
  | None => FReturn false
  | Some x =>
      match x with
      | [] => FReturn false
      | "#"%char :: _ => FReturn false
      | _ =>
          let prefix := s "javascript:" in
          if Nat.ltb (length x) (length prefix) then FReturn true
          else FReturn (negb (str_eqb (firstn (length prefix) x) prefix))
      end
  end.

(** HrefCapture as a capture of the model. A class derived from Capture may
    return no value; this one does so only for nodes that the match of its rule
    refuses, so it is a FunctionCapture on the nodes it is called for (see
    [href_capture_called]). *)
Definition href_function (U : uri_library) (base : uri U) (d : node) (p : npath) : fres str :=
  match HrefCapture_capture U base d p with
  | FReturn (Some x) => FReturn (snd x)
  | FReturn None => FReturn []
  | FThrow => FThrow
  end.

(** The rules, extract-href.cpp 103-107 and 151-153. *)
Definition base_rule : rule :=
  mk_rule None None [] [] [Some (AttributeCapture (s "href") (s "href") None)] TAG_BASE false false None.
Definition anchor_rule (U : uri_library) (base : uri U) : rule :=
  mk_rule None None [] [Some (FunctionMatch (Some has_useful_href))]
    [Some (FunctionCapture (Some (UserFunction (href_function U base))) (s "href") None)] TAG_A false false None.

(** BaseUri, extract-href.cpp 101-118. *)
Definition BaseUri (fuel : nat) (E : engine) (d : node) (root : nptr) : outcome (option str) :=
  let! result := extract fuel E base_rule d root 0 in
  match result with
  | [] => Ok None
  | m :: _ =>
      if Nat.eqb (multimap_count m (s "href")) 0 then Ok None
      else match lower_bound m (s "href") with
           | x :: _ => Ok (Some (snd x))
           | [] => UB BadPointer
           end
  end.

(** main after reading the input, extract-href.cpp 144-162. [arg]: argv[1] if
    there is one. *)
Definition href_main (fuel : nat) (E : engine) (U : uri_library) (arg : option str) (d : node) (root : nptr) : outcome str :=
  let! base_uri :=
    match arg with
    | Some a => Ok a
    | None => let! b := BaseUri fuel E d root in Ok (match b with Some x => x | None => [] end)
    end in
  let! base := call (parse_uri U base_uri) in
  let! result := extract fuel E (anchor_rule U base) d root 0 in
  Ok (concat (map (fun m => concat (map (fun x => snd x ++ newline) m)) result)).
