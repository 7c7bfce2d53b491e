# Formal model of hound (hound-search/hound) in Rocq / Coq 8.16.1

The code in /repo was read as text; nothing was built or run. `rocq/theories`
contains the model, the specifications, the proofs and the property theorems.

## Layout

* `theories/Model/*.v` - the code, function by function, as total computable
  Gallina functions or init/step machines. Every definition cites file:lines.
  No proofs.
* `theories/Spec/*.v`  - independent specifications (sets, languages, line lists,
  ...), written without using the model's helper functions.
* `theories/Proofs/*.v` - lemmas.
* `theories/Props/*.v` - the property theorems: each is closed with `exact` of a
  lemma, followed by an `Example` showing that its hypotheses are met by a
  concrete non-trivial case, and by `Print Assumptions`.
* `theories/Conform/*.v` - the project's own unit tests, run on the model (see the end).

## Conventions

* A byte is an `N`, a string/[]byte a `list N`. `uint32` values are `N` with
  explicit `mod 2^32` where wrap-around can be observed.
* `nat` is used for lengths, indices and fuel only.
* `log.Fatal`, panics (index out of range, nil dereference) and errors are explicit
  outcomes (`option`/`result`), never defaulted.
* Loops without structural measure take fuel. Fuel is either shown sufficient by a
  lemma or running out of it is a separate outcome that the theorem excludes.
* Calls out of the modelled code (file system, VCS commands, regexp/syntax parser,
  unicode tables) are parameters or explicit premises of the theorems.
* If a property is false of the faithful model, `Cxx_..._refuted` proves the
  existence of a counterexample and `Cxx_..._partial` proves what is true.

## Plan per property

| id | what is modelled | how it is proved |
|----|------------------|------------------|
| C01 | `analyze`/`concat`/`alternate`/`simplify`/string sets with *slice storage* (arrays, len, cap, arbitrary growth policy) and a pure version | inductive match relation for regexps with contexts as spec; heap version refines pure version unless `alternate` appends in place; pure version sound by induction; refutation for `([abc]\|0+)zz` |
| C02 | `Query`, `andOr`, `implies`, `trigramsImply`, `andTrigrams` | semantic evaluation over arbitrary trigram predicates; fuel shown sufficient |
| C03 | `postingList/And/Or/Query`, `mergeOr` | result = filter of the id range by the query semantics |
| C04, C05, C06 | whole `IndexWriter` byte output and whole reader | refinement to list of (name, trigram set); output bytes as a function of the abstract content only |
| C07 | `writeUvarint`, `uvarint`, `writeUint32`, `uint32` | codec round trip by arithmetic |
| C08 | `sparse.Set` over arbitrary memory | invariant |
| C09 | `sortPost` radix passes | stability invariant, permutation + sortedness |
| C10 | `postHeap` | heap invariant, multiset preservation |
| C11 | `Add` over arbitrary chunkings | fold invariant against declarative criteria |
| C12 | UTF-8 codec, `validUTF8`, `validUTF8IgnoringPartialTrailingRune`, `isTextFile` | spec = concatenation of encodings of scalar values |
| C13 | `bufWriter` | simulation by appended list |
| C14 | `toByteProg`, `runeBuilder`, `appendFoldedRange`, `oneByteRange` | path semantics of byte programs |
| C15, C16 | matcher: `addq`, `stepEmpty`, `stepByte`, `computeNext`, `cache`, `match` | DFA state = set of NFA threads; cache = memo table invariant |
| C17, C18 | `grep2`, `lastNLines`, `firstNLines`, `countLines` | characterisation over split lines |
| C19 | `fillFrom` | loop invariant over arbitrary reader behaviours |
| C20, C21, C22, C23 | `Index.Search` | list-level spec; composition; for C23 down to the regular expression itself, with a Thompson construction showing that the assumption on `syntax.Compile` can be met |
| C24 | `indexAllFiles`, `addFileToIndex` over directory trees | accounting invariant over the walk |
| C25-C27, C30, C31 | `Searcher` goroutines as transition systems | inductive invariants over all schedules; refutations by explicit runs |
| C28, C29 | limiter, `MakeAll` | invariants over all schedules |
| C32-C35 | `Build`, `Destroy`, startup as file-system state machine with crashes | invariants over crash points |
| C36-C39 | api.go | decision functions, permutation invariance |
| C40-C42 | config.go | map semantics |
| C43-C45 | client | block invariants; escape stripping; string scanning |
| C46 | web.go | transition system |
| C47 | merge.go | id maps + posting list merge |
| C48-C50 | vcs | outcome functions |
| C51 | index directories | reachable states with crashes |
| C52 | chunked line scan | loop invariant over the unread rest of the input |
| C53 | `Present`, `%d` | output = lines of the file by rows; blocks from C43 |
| C54 | query string built by the client, parsed by the server | round trip of the escaping, field by field |
| C55 | `SearchAndLoadRepos` as transition system, replies of the server | all runs have four steps; case analysis of replies |
| C56 | JSON string literals written and read | induction over the text, one rune at a time |
| C57 | vcs/local.go over file listings | injectivity of the list of hashes |
| C58 | JSON values printed and parsed; the structs of a response encoded and decoded | nested induction over values; field by field for the structs |
| C59 | request, searches, answer and output put together | composition of C04, C23, C53, C54, C58; windows around matches |
| C60 | the signal handler beside the server | projection to the server's executions, invariant over runs, progress of the handler under fairness; scripted fair execution for the hang |
| C61 | queries as structs and arrays in memory | representation predicate with disjoint footprints, frame rule; induction over operations, expressions and pattern sequences |
| C62 | the drivers' commands | case analysis over drivers and outcomes; lemma on the path split |
| C63 | Model/Excluded.v, Model/Swap.v | JSON round trip (C58); invariant over interleavings of listing and update; refuted in full by a listing overtaken by an update |
| C64 | Model/Offer.v, Config, Json | sorted association lists are equal when they agree; marshalling equals printing a JSON value, then the round trip (C58); induction over values for the absence of markup |
| C65 | Model/Json.v, JsonText.v, Wire.v | the RFC 8259 grammar as inductive relations; induction over values for printing, over derivations for reading (completeness), over fuel for what is accepted (soundness) |
| C66 | Model/ClientConf.v, Json, Wire | both files are one list of members; induction from its end against 'the last value said'; induction over the headers in any order |
| C67 | Writer, Reader, IndexMerge, IndexDir | format as inductive relations over bytes; uniqueness of big-endian and base-128 digits makes format and writer's layout equal; the trailer determines the sections, which gives the refutations |
| C69 | Model/ConfigFile.v, Json, Wire | a literal is read alike whatever follows it, so texts of values can be cut out of the file; generic lemmas for one field of a structure under repeated members; the same proof for strict and for lax strings |
| C70 | Model/ConfigFile.v, Config, ConfigCodec | inversion of the crash outcomes; the text of a value that is not null does not decode to null |
| C68 | Drivers.v, ConfigCodec.v, Config.v | merged map has the own value of a name, else the global one; last member of a name wins in both decoders; values of the options survive re-encoding |
| C71 | Model/Mux.v | invariant of the loop of path.Clean: the bytes written are the names reached so far, on a stack; the proper form of a path is a fixed point; case analysis of the mux |
| C72 | Model/Pages.v | an HTML/XML reader as specification, run symbolically over the fixed parts; induction over the inserted texts |
| C73 | Model/GoRegexp.v, Utf, Matcher | languages of fragments with holes; induction over the expression with an invariant on unpatched exits; least fixed points for loops; then C14 and the matcher |
| C74 | Model/GoParse.v, Whole, GoRegexp | the parser on quoted texts by induction over the characters, then C73 and C23 for one repository; late letters refuted |
| C75 | Model/PageView.v | invariant over the matches merged so far (rows of done matches = lines covered), then the order of server matches from C43 |
| C76 | Model/PageView.v | induction over the loop with a relation for what html shows; empty matches and anchors refuted |
| C77 | PageState, Whole | invariant of the page's state machine over every sequence of events; the server by C20/C21's folds; witnesses computed for the unordered cases |
| C78 | PageAddress | a relation between written and meant text; induction over it for decoding, over well-formed text for encoding; repository names refuted |
| C79 | PageSelect, PageState, Api | invariant of the filter; joined names against the elements of a list; names refuted |
| C80 | PageLinks | a pattern as a list of pieces; the first occurrence by induction over them; the expression for addresses worked out case by case; refuted for $, {, #, repeated names, .wiki twice, excluded files |
| C81 | Signal | mutual induction over executions: arrays once made are not changed |
| C82 | PageNames, Client | the last slashes located in both; groups of digits by induction; refuted for empty parts and large numbers |
| C83 | Model/Handles.v | effects of each function on the open files, temporary files and mappings, composed; invariant of a searcher's life by induction |
| C84 | Model/PageExcluded.v | invariants of all visits by induction over the events |
| C85 | Model/PageSay.v | on top of PageState: transactions from any state; invariant of all visits |
| C86 | Model/Offer.v, Pages.v, Mux.v | composition of C64, C71, C72 |
| C87 | Source (SpecialFiles, build_options, index_source), Drivers, IndexDir | from C24's traversal theorem; refuted for the root of a local directory |
| C88 | Source (resolved, root_of, Symlink, local_start), LocalVcs | case analysis of link resolution; four refutations with explicit file systems |
| C89 | Model/Life.v | invariant over the history of the process; for the end after a failed listener a leads-to argument over fair runs; counterexamples for `at once` and `not in the middle of work` |
| C90 | PageOpen, PageState | the tree of components as lists kept by place; invariant that it has the shape of the results; effect of each click on every component; counterexamples by running the page |
| C91 | PageState, PageView, Api, Request, Whole, GoParse, GoRegexp, Matcher, Index, Search | composition: C74's files and lines for the searcher, C77's page for honest servers (restricted to the searches considered), C75's rows |
| C92 | PageState, PageView, Api, Request, Whole, Analyze, Matcher, Index, Search | composition: C23's files and lines with both filters for the searcher, C77's page for honest servers, C75's rows; one generic theorem about the page over any description of the files found |
| C93 | PageForm, PageAddress, PageState, Request, Api | a relation between UTF-16 and UTF-8 text, functional both ways; induction over code points for what is escaped, replaced, shown and unescaped; induction over the members for the query; trimming against an independent description |
| C94 | PageBar | invariants over runs: list and state in step, marks none or those of the address, closed means empty; witnesses |
| C95 | Polling (settings of the configuration) over Server | leads-to argument over fair executions from any phase of the loop; potential function for the number of pulls; refutations by explicit fair executions for negative and overflowing delays |
| C96 | Locks | invariants (queues only behind a writer, no readers beside one); leads-to argument over fair executions, lock by lock: readers leave, the writer gets the lock, the queue is woken |
| C97 | Follow over Server and Polling | ghost history of the loop's variables along an execution; invariant relating the known revision to the index served; leads-to argument from an attempt to the swap; refutation by an explicit infinite fair execution |
| C98 | Follow, Polling, Server, IndexDir, Whole, GoParse | composition of C97, C24 and C74: the index served in the end is of the resting revision, hence built from its working copy, hence answers exactly |
| C99 | Startup | invariant: a directory is mentioned by a job, failed, or found and not yet claimed; counting |
| C100 | Gather | invariant: results received and in the channel are those sent; measure that each step decreases |
| C101 | PageForm, Request, Api, Whole, GoParse, PageState, PageView; Spec/TypedSpec | composition of C93 and C91: the parameters of the form are those of a plain search, for one text only, and what is sent is read as they are |
| C102 | Follow, IndexDir, Whole, PageForm, PageState, PageView; Spec/WrittenSpec | composition of C97 (for each repository one index stays), C24 (its files) and C101 (what is typed); the files of the indices chosen by induction on the list of repositories |
| C103 | DevPages: requests for one page as interleaved steps over the shared template | invariant over executions: what each request read and what was stored last; refuted for overlapping requests (stale template, nil template) |
| C104 | CmdLine: package flag, ParseInt with base 0, ParseBool, the flags of both programs | induction over the arguments against a grammar of command lines; numerals against Go's grammar |
| C105 | CmdLine, Request, Api, Whole, Wire, Client, Present, IndexDir, Follow | composition of C104, C59, C74, C24 and C97 |
| C106 | GoParse, GoRegexp, Matcher, Whole, PageState, PageView; Spec/PatternSpec | induction over how a pattern is written: the parser's stack above the last parenthesis means what has been read, and its limits are not reached; the ranges of a class are sorted, joined and complemented without changing what is in them; then C73, C23 and C92 |
| C107 | GoParse, Whole, Wire; Spec/FaultSpec | the reading of C106 up to the fault, with the groups that are open on the stack; every search then fails, so the first answer that arrives is an error |

## Trusted base

* Coq 8.16.1: its kernel and `vm_compute` (used for concrete examples and finite table
  checks only). `coqchk` re-checks the compiled files.
* Every property theorem ends in `Print Assumptions`; each prints "Closed under the
  global context". There are no axioms, parameters or open hypotheses in this project.
  The checker lists the seven constants of `Coq.ssr.ssrunder.Under_rel` as library
  axioms: they are the fields of a module type in the standard library, loaded by
  `From Coq Require Import List`; no theorem depends on them.
* The reading of the Go code below. It was not tested against the running program.

## What is modelled, and how

| file of /repo | model | not modelled there |
|---|---|---|
| codesearch/index/write.go | Writer, Posts, Codec, BufWriter, IndexRun | logging, write errors, removal of temporary files; `AddFile` (opens a file and calls `Add`) |
| codesearch/index/read.go, mmap_linux.go | Reader | the mapping itself (the file is its bytes); `Close`; the 4096 byte rounding of the mapping; other platforms |
| codesearch/index/regexp.go | Query, Analyze, Syntax; QueryHeap, AnalyzeHeap (the structs in memory) | `String` methods (debug output); `syntax.Regexp` is input |
| codesearch/index/merge.go | IndexMerge | temporary files, closing of the inputs |
| codesearch/sparse/set.go | Sparse | - |
| codesearch/regexp/utf.go, copy.go | Utf, Utf8 | debug dumps |
| regexp/syntax of the standard library (simplify.go, compile.go, prog.go) | GoRegexp | |
| regexp/syntax parse.go, regexp.QuoteMeta of the standard library | GoParse | alternatives, named groups, `\p`: the model stops there (`Beyond`); sizes from 3355443 nodes on, and counts that would give more than that many |
| codesearch/regexp/match.go, regexp.go | Matcher, GrepChunk (`Grep.Reader`), GoRegexp (`Compile`) | `Grep.File` and `AddFlags` |
| index/grep.go | Grep, GrepChunk (`grep`) | gzip (the reader delivers the contents) |
| index/index.go | IndexDir, Search, Startup, Swap, Locks, Whole (compiling the request), Excluded (excluded_files.json) | gob, gzip; os errors are inputs |
| searcher/searcher.go | Server, Polling, Follow, Swap, Locks, Shared, Startup, Generated | logging, memory reports, garbage collection |
| api/api.go | Api, Request (form values), ClientRun (replies), JsonText, Json, Wire (the text of an answer), Gather (the goroutines of searchAll) | HTTP transport |
| web/web.go | Web, Mux (routing) | hosts in patterns, the escaping of a Location |
| ui/ui.go (45-165, 190-228), content.go, bindata.go, the templates in assets/ | Mux, Pages, DevPages | in dev mode: what a template renders to, the files served by http.FileServer; http.ServeContent, how html/template finds the context of an action |
| config/config.go | Config, ConfigFile (decoding), ConfigCodec (the merged settings), Offer (the JSON of the repositories) | reading the file from disk; floats (parameters with laws) |
| client/coalesce.go, ack.go, client.go, ansi/ansi.go | Client, Present, GoFmt, Request, ClientRun | HTTP, terminals, client/grep.go (a stub) |
| vcs/git.go, hg.go, svn.go, bzr.go, vcs.go | Vcs, GoStr, Drivers (New and the settings) | the commands themselves (an oracle) |
| cmds/houndd/main.go (34-81, 146-160) | Shutdown, Offer (makeSearchers) | the other end of the process (a failing listener); the exit itself stops nothing in the model |
| cmds/hound/main.go (30-82, 84-127), client/client.go (76-92) | ClientConf, CmdLine | output (Present); that a pattern that does not compile is a panic; HTTP beyond the request |
| cmds/houndd/main.go (132-145), package flag, strconv.ParseInt with base 0, strconv.ParseBool | CmdLine | the texts printed for wrong flags |
| ui/assets/js/hound.js (614-727), common.js (1-3) | PageView | React (what is made of the values), the engine for expressions (an input), how a browser reads html (a relation in Spec/ViewSpec.v) |
| ui/assets/js/hound.js (130-250, 905-912, 1009-1051) | PageState | React, reqwest (a request is an object of names and values; its answer arrives once, at any time), JSON (the responses arrive as they were sent; C58), localeCompare (an input) |
| ui/assets/js/hound.js (20-60, 392-410, 1055-1072) | PageAddress | the inputs of the form; encodeURIComponent, decodeURIComponent (from ECMA-262) and the browser's reading of an address (from the URL standard) are modelled |
| ui/assets/js/hound.js (81-93, 392-404) | PageSelect | the list in the form (its selected values are an input); an object is asked for its own names and those of Object.prototype |
| ui/assets/js/common.js (5-70), hound.js (278-284), excluded_files.js (6) | PageLinks | texts with line terminators in addresses; an anchor's pattern is always set (config.go:108-119) |
| ui/assets/js/signal.js | Signal | `this` in listeners; executions that do not end |
| ui/assets/js/hound.js (10-18, 252-274) | PageNames | numbers that are not integers |
| index/index.go, codesearch/index (write.go, mmap_linux.go), searcher.go: open files, temporary files, mappings | Handles | contents left out; Close and Remove do not fail; no finalizers |
| ui/assets/js/excluded_files.js | PageExcluded | React and reqwest themselves (an empty answer with status 200) |
| ui/assets/js/hound.js (382-421, 897-991, 1017-1054) | PageSay | React; RegExp, trim, EscapeRegExp (parameters); what is open and closed |
| searcher.go:401, 423-427; SpecialFiles of all drivers; index.go:382-389 (os.Stat, os.Readlink, os.Lstat, os.basename); vcs.go:67-81 for local.go | Source | links in the middle of a path are part of the given file system |
| cmds/houndd/main.go:127-188, web/web.go:54-85 | Life | flags, logging, the dev server; what a piece of work does and how the handler stops the loops (C28-C31, C60) |
| ui/assets/js/hound.js:727-990 (open and closed) | PageOpen | keys and refs of react 0.12 are as its sources do it: by place; results whose expression cannot be made (PageSay) |
| ui/assets/js/hound.js (130-169, 217-235, 392-410; what is sent) | PageForm | String.prototype.trim from ECMA-262; toQueryString and urlappend from reqwest 2.0.5, which is not in the repository; the order of the members of an object is arbitrary |
| ui/assets/js/hound.js (286-609, 993-1054: the search bar), react-0.12.2.min.js (ReactDOMSelect, _updateDOMProperties) | PageBar | layout; fields restored by the browser; the statistics |
| vcs/local.go | LocalVcs | symbolic links beyond the one made by Clone |

Outside the model: the rest of ui/ and of the JavaScript front end, the main functions of cmds/ except
where cited, tests.

Assumptions made by the models (each is stated in the comment of the file):

* Analyze: arrays with identity, length and capacity; `append` either writes in place or
  reallocates with a capacity chosen by an arbitrary growth policy; `unicode.SimpleFold`
  orbits are a parameter. Query nodes are immutable trees in Model/Query.v; Model/QueryHeap.v
  and Model/AnalyzeHeap.v have the mutable structs and arrays, and C61 shows that the
  two agree (regexpInfo itself is passed by value there; the string sets keep their own
  store).
* Utf: `unicode.SimpleFold` is a parameter with the property that its orbits are closed;
  instruction counters do not wrap.
* C23_expression_*: the rune program returned by `syntax.Compile` matches the lines
  the expression matches (`faithful`, Spec/ExprSpec.v), and is of the form that
  regexp/syntax generates (`wf_xprog`). C23_parsed_* and C73 have the model of it instead.
* GoRegexp: Simplify and Compile of Go 1.21, written from the source of the standard library as known
  (it is not in /repo); likewise GoParse; expressions are as the parser returns them (`parsed`, Spec/ParsedSpec.v).
* Api: `int` has 64 bits. Maps are association lists; statements hold for every order.
* Config: `json.Unmarshal`/`Marshal` for objects are parameters satisfying `codec_ok`;
  ConfigCodec has encoding/json itself, and satisfies it (Proofs/ConfigCodecProofs.v) for
  floats with `floats_ok`: what is written for a number that was read is a number and is
  read as the same.
* ConfigFile: a null in a list of texts is the empty text; the limit of 10000 on nesting is
  left out, and so are U+017F and U+212A, which encoding/json takes for s and k in names.
* Client: positions of `FindAllStringIndex` are a parameter (in order, disjoint, inside).
* Present: a write either succeeds or leaves nothing; no nil entries in the response.
* Request: net/url (`QueryEscape`, `Values.Encode`, `ParseQuery`) is modelled from its
  documentation and source; request bodies are empty.
* ClientRun: a reply is a transport error or a status with a body; the decoder takes the
  fields it knows from a JSON object and ignores others.
* JsonText: the encoder and decoder of encoding/json for strings, with HTML escaping; both
  spellings of the control characters that differ between Go versions are covered.
* Json, Wire: values are written without spaces and read with them; a number is
  its text; names of struct fields are compared up to ASCII case; the members
  of a map are written in any order; names of repositories are UTF-8 (they come from JSON).
* ClientConf: a path is missing, unreadable or its bytes; `user.Current` is an input; `os.Expand`
  for plain names only.
* Mux: http.ServeMux as of Go 1.21, path.Clean; the embedded files are a list of names with contents.
* Pages: html/template's escapers for plain strings, chosen as its contexts demand; the reader of
  Spec/HtmlReader.v accepts a part of HTML and refuses everything else.
* PageState: strings are their bytes; the server's repositories do not change during the visit; `results` is
  sorted by insertion (Array.prototype.sort with a consistent comparison).
* PageAddress: strings are lists of UTF-16 code units; the page is served over http(s) (whose queries have `'`
  escaped) and its path has no `?` or `#`.
* PageView: strings are lists of UTF-16 code units; expressions are given by `exec`; `innerHTML` of a text
  as the HTML standard says.
* Excluded: the ratio printed in two of the reasons is any ASCII text.
* Whole: `regexp.Compile` with `RegexpQuery` and `regexp.QuoteMeta` are parameters; the
  searchers asked are those of one moment (updates during a search are Swap).
* LocalVcs: SHA-1 is a parameter giving a fixed number of bytes; a directory is the list
  of the regular files below it with their contents, or none if unreadable.
* Vcs: outputs and exit statuses of commands are decided by an arbitrary oracle that
  sees everything run before.
* Swap, Locks, Shared, Server, Follow, Shutdown, Startup, Web: interleavings of atomic steps (one channel, lock,
  shared-memory or file operation each); memory is sequentially consistent; `RWMutex`
  without writer preference (more schedules), except in Locks, where a waiting writer keeps
  new readers out and they queue behind it. Fairness is a premise where a theorem says
  that something eventually happens.
* Startup: gob of the manifest is a parameter with two laws (decodes what was encoded,
  rejects proper prefixes); new directory names do not repeat; the order of the listing
  is left open; data written before a crash stays written.
* Shared: the hash that names working copies is injective.

## Testing the theorems

`seeded/LOG.jsonl` lists the wrong programs tried: each line is one edit of a model
definition, the claim it breaks, and the theorems whose proofs then fail. When the proof
that fails is a lemma's, every theorem of the files that need that lemma's file is listed
(none of them can be checked any more), so such a list is an upper bound. No property
theorem survived an edit that falsifies its claim (those that did were tightened, see
the last field).

## Testing the model

The code cannot be run here, but its unit tests say what it does on their inputs. `theories/Conform` has these
tests as `Example`s computed on the model; a definition that differs from the code on one of the inputs would
break the build. They are tests of the model's fidelity, not proofs of properties, and no property rests on them.

| tests in /repo | in Conform | what is run |
|---|---|---|
| codesearch/index/regexp_test.go | TestQuery.v, Queries.v | RegexpQuery on all 47 expressions, compared through Query.String (Model/QueryString.v) |
| codesearch/regexp/regexp_test.go | TestMatch.v, Matches.v, TestGrep.v | Compile and Match on all 80 rows; Grep.Reader |
| codesearch/index/write_test.go, read_test.go, merge_test.go | TestIndex.v | the 200-odd bytes of the trivial index, with and without spilling; the heap; posting lists; merging |
| index/grep_test.go | TestGrep.v | fillFrom, firstNLines, lastNLines, grep2 with and without context |
| client/coalesce_test.go, ansi/ansi_test.go, api/api_test.go | TestClient.v | all cases |
| config/config_test.go, vcs/git_test.go, svn_test.go, vcs_test.go | TestConfig.v | config-example.json as it stands, byte for byte, through LoadFromFile; drivers |
| ui/assets/js/common.test.js, signal.test.js | TestPage.v | ExpandVars, UrlParts, UrlToRepo, Signal |

Not run: index/index_test.go (needs the test's own directory as input), EscapeRegExp (tested through the
browser's RegExp). The expressions of the first two rows are given to the model as regexp/syntax.Parse gives them to
the code; `tools/goregex.py` is a transcription of that parser written for this, and `tools/conform.py` writes Queries.v and Matches.v.
