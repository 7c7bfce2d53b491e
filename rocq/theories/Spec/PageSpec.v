(** C72: what a browser finds on the pages. *)
From Verif Require Import Model.Base Model.GoStr Spec.Names Spec.Utf8Spec Spec.HtmlReader.
Local Open Scope N_scope.

(** HTML cannot hold NUL. *)
Definition shown (s : str) : str := flat_map (fun c => if c =? 0 then [0xEF; 0xBF; 0xBD] else [c]) s.

(** Octets named by a part of a URL; a % that begins no escape is itself. *)
Definition hex_value (c : N) : option N :=
  if (48 <=? c) && (c <=? 57) then Some (c - 48)
  else if (65 <=? c) && (c <=? 70) then Some (c - 55)
  else if (97 <=? c) && (c <=? 102) then Some (c - 87)
  else None.
Fixpoint octets (s : str) : str :=
  match s with
  | [] => []
  | c :: t =>
      match t with
      | a :: b :: r =>
          match (if c =? 37 then match hex_value a, hex_value b with Some x, Some y => Some (x * 16 + y) | _, _ => None end else None) with
          | Some o => o :: octets r
          | None => c :: octets t
          end
      | _ => c :: octets t
      end
  end.
(** RFC 3986: unreserved, reserved (but no quotes and parentheses), % *)
Definition url_char (c : N) : Prop :=
  65 <= c <= 90 \/ 97 <= c <= 122 \/ 48 <= c <= 57 \/ In c (text "-._~:/?#[]@!$&*+,;=%").
Definition same_address (host u : str) : Prop := Forall url_char u /\ octets u = octets host.

(** No part of a script ends the element or begins a comment. *)
Definition whole_script (js : str) : Prop :=
  ~ In 0 js /\ forall a b, js = a ++ text "<" ++ b -> begins (text "/script") b = false /\ begins (text "!--") b = false.

(** What is safe within a literal of JavaScript: characters, but no controls or line separators. *)
Definition one_line (s : str) : Prop := exists chars, s = concat chars /\
  Forall (fun bs => exists r, utf8 r bs /\ 0x20 <= r /\ r <> 0x2028 /\ r <> 0x2029) chars.

Definition nl : str := [10].
(** The start page; [model] is the literal for the repositories. *)
Definition start_tokens (title address model js : str) : list token :=
  [Declared (text "!DOCTYPE html");
   Start (text "html") [(text "lang", text "en")];
   Start (text "head") [];
   Start (text "meta") [(text "charset", text "utf-8")];
   Start (text "meta") [(text "http-equiv", text "X-UA-Compatible"); (text "content", text "IE=Edge")];
   Start (text "title") []; Title title; End (text "title");
   Start (text "link") [(text "rel", text "stylesheet"); (text "href", text "css/octicons/octicons.css")];
   Start (text "link") [(text "rel", text "stylesheet"); (text "href", text "css/hound.css")];
   Start (text "link") [(text "rel", text "search"); (text "href", text "//" ++ address ++ text "/open_search.xml");
                        (text "type", text "application/opensearchdescription+xml"); (text "title", title)];
   End (text "head");
   Start (text "body") [];
   Start (text "div") [(text "id", text "root")];
   Start (text "div") [(text "id", text "result")];
   End (text "div"); End (text "div");
   Start (text "script") [];
   Script (nl ++ text "        var ModelData = " ++ model ++ text ";" ++ nl ++ text "        ");
   End (text "script");
   Start (text "script") [(text "src", text "js/react-0.12.2.min.js")]; Script (text ""); End (text "script");
   Start (text "script") []; Script js; End (text "script");
   End (text "body"); End (text "html")].
Definition excluded_tokens (js : str) : list token :=
  [Declared (text "!DOCTYPE html");
   Start (text "html") [];
   Start (text "head") [];
   Start (text "meta") [(text "charset", text "utf-8")];
   Start (text "title") []; Title (text "Hound - Excluded Files"); End (text "title");
   Start (text "link") [(text "rel", text "stylesheet"); (text "href", text "css/octicons/octicons.css")];
   Start (text "link") [(text "rel", text "stylesheet"); (text "href", text "css/hound.css")];
   End (text "head");
   Start (text "body") [];
   Start (text "div") [(text "id", text "root")]; End (text "div");
   Start (text "script") [(text "src", text "js/react-0.12.2.min.js")]; Script (text ""); End (text "script");
   Start (text "script") []; Script js; End (text "script");
   End (text "body"); End (text "html")].

(** A Host header the server lets through (golang.org/x/net/http/httpguts, ValidHostHeader). *)
Definition host_byte (c : N) : Prop :=
  65 <= c <= 90 \/ 97 <= c <= 122 \/ 48 <= c <= 57 \/ In c (text "!$%&()*+,-.:;=@[']_~").
Definition search_tokens (host : str) : list token :=
  [Declared (text "?xml version=""1.0"" encoding=""UTF-8""?");
   Start (text "OpenSearchDescription") [(text "xmlns", text "http://a9.com/-/spec/opensearch/1.1/")];
   Start (text "ShortName") []; Text (text "Hound"); End (text "ShortName");
   Start (text "Description") []; Text (text "Search code with Hound"); End (text "Description");
   Start (text "Tags") []; Text (text "Hound"); End (text "Tags");
   Start (text "Url") [(text "type", text "text/html"); (text "method", text "get");
                       (text "template", text "http://" ++ host ++ text "/?q={searchTerms}")];
   End (text "OpenSearchDescription")].
