(** The pages made from templates: ui/ui.go:143-165 renderForPrd, ui/content.go:5-65,
    ui/assets/index.tpl.html, excluded_files.tpl.html, open_search.tpl.xml (copied to .build/ui
    by the Makefile). html/template inserts, by the context it finds at each action, the
    escapers given here (text/template: none); its analysis is not modelled, and its escapers
    are for plain strings. A page is written whole. *)
From Verif Require Import Model.Base Model.Utf8 Model.JsonText Model.Config Model.Offer Spec.Names.
Local Open Scope N_scope.

(** html/template htmlReplacementTable *)
Definition replacement (r : N) : str :=
  if r =? 0 then [0xEF; 0xBF; 0xBD]
  else if r =? 34 then text "&#34;"
  else if r =? 38 then text "&amp;"
  else if r =? 39 then text "&#39;"
  else if r =? 43 then text "&#43;"
  else if r =? 60 then text "&lt;"
  else if r =? 62 then text "&gt;"
  else [].
(** htmlReplacer(s, htmlReplacementTable, true): rcdataEscaper and attrEscaper. [fuel]: at
    least the length. *)
Fixpoint htmlReplacer (fuel : nat) (s : str) : str :=
  match fuel, s with
  | O, _ | _, [] => []
  | S fuel, _ =>
      let '(r, w) := decode_rune s in
      match replacement r with
      | [] => firstn w s ++ htmlReplacer fuel (skipn w s)
      | repl => repl ++ htmlReplacer fuel (skipn w s)
      end
  end.
Definition escape (s : str) : str := htmlReplacer (length s) s.

(** urlNormalizer: processURLOnto(s, true, b) *)
Definition url_kept (c : byte) : bool :=
  existsb (N.eqb c) (text "!#$&*+,/:;=?@[]-._~") ||
  ((97 <=? c) && (c <=? 122)) || ((65 <=? c) && (c <=? 90)) || ((48 <=? c) && (c <=? 57)).
Definition isHex (c : byte) : bool :=
  ((48 <=? c) && (c <=? 57)) || ((97 <=? c) && (c <=? 102)) || ((65 <=? c) && (c <=? 70)).
Fixpoint urlNormalizer (s : str) : str :=
  match s with
  | [] => []
  | c :: r =>
      let kept := if c =? 37 then match r with a :: b :: _ => isHex a && isHex b | _ => false end else url_kept c in
      if kept then c :: urlNormalizer r
      else 37 :: lowerhex (c / 16) :: lowerhex (c mod 16) :: urlNormalizer r
  end.

(** jsValEscaper: json.Marshal; what it writes for a string begins and ends with a quote, so
    it is not padded, and has U+2028 and U+2029 escaped already. *)
Definition jsValEscaper (short : bool) (s : str) : str := json_literal short s.

Definition ReactVersion : str := text "0.12.2".

(** ui.go:146-155, [js]: the sources, which are embedded. *)
Definition source (js : str) : str := text "<script>" ++ js ++ text "</script>".

Definition index_page (short : bool) (title host : str) (cfg_json js : str) : str :=
  text "<!DOCTYPE html>
<html lang=""en"">
    <head>
        <meta charset=""utf-8"">
        <meta http-equiv=""X-UA-Compatible"" content=""IE=Edge"" />
        <title>" ++ escape title ++ text "</title>
        <link rel=""stylesheet"" href=""css/octicons/octicons.css"">
        <link rel=""stylesheet"" href=""css/hound.css"">
        <link rel=""search"" href=""//" ++ escape (urlNormalizer host) ++ text "/open_search.xml""
              type=""application/opensearchdescription+xml""
              title=""" ++ escape title ++ text """ />
    </head>
    <body>
        <div id=""root"">
            <div id=""result"">
            </div>
        </div>

        <script>
        var ModelData = " ++ jsValEscaper short cfg_json ++ text ";
        </script>
        <script src=""js/react-" ++ escape (urlNormalizer ReactVersion) ++ text ".min.js""></script>
        " ++ source js ++ text "
    </body>
</html>
".
Definition excluded_page (js : str) : str :=
  text "<!DOCTYPE html>
<html>
    <head>
        <meta charset=""utf-8"">
        <title>Hound - Excluded Files</title>
        <link rel=""stylesheet"" href=""css/octicons/octicons.css"">
        <link rel=""stylesheet"" href=""css/hound.css"">
    </head>
    <body>
        <div id=""root""></div>

        <script src=""js/react-" ++ escape (urlNormalizer ReactVersion) ++ text ".min.js""></script>
        " ++ source js ++ text "
    </body>
</html>
".
Definition open_search_page (host : str) : str :=
  text "<?xml version=""1.0"" encoding=""UTF-8""?>

<OpenSearchDescription xmlns=""http://a9.com/-/spec/opensearch/1.1/"">
    <ShortName>Hound</ShortName>
    <Description>Search code with Hound</Description>
    <Tags>Hound</Tags>
    <Url type=""text/html""
         method=""get""
         template=""http://" ++ host ++ text "/?q={searchTerms}"" />
</OpenSearchDescription>
".

(** GET / in production: the configuration as it was when the handler was made (ui.go:190-228). *)
Definition start_page (short : bool) (title host : str) (repos : list (str * option repo)) (js : str) : str :=
  index_page short title host (page_repos short repos) js.
