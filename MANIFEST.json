{
 "claims": [
  {
   "property": "C01",
   "status": "partial",
   "theorems": [
    "C01_in_memory_partial",
    "C01_prefilter_partial",
    "C01_no_alternation_partial",
    "C01_shared_storage_refuted"
   ],
   "note": "Proved for every run of the analysis in which alternate (regexp.go:607-608) does not append to x.exact in place, and unconditionally for expressions without '|'. The full statement is false: with Go's slice growth, (foo|bar|cat|quux)zed yields a query that the text foozed does not satisfy, because prefix, suffix and exact sets share one array (C01_shared_storage_refuted). C01_in_memory_partial is the same for the query structs in memory (C61), after any number of further patterns."
  },
  {
   "property": "C02",
   "status": "proved",
   "theorems": [
    "C02_and_meaning",
    "C02_or_meaning",
    "C02_terminates",
    "C02_and_trigrams_meaning"
   ],
   "note": ""
  },
  {
   "property": "C03",
   "status": "proved",
   "theorems": [
    "C03_lookup_exact"
   ],
   "note": ""
  },
  {
   "property": "C04",
   "status": "proved",
   "theorems": [
    "C04_posting_roundtrip",
    "C04_build_succeeds"
   ],
   "note": ""
  },
  {
   "property": "C05",
   "status": "proved",
   "theorems": [
    "C05_names_roundtrip"
   ],
   "note": ""
  },
  {
   "property": "C06",
   "status": "proved",
   "theorems": [
    "C06_flush_independent"
   ],
   "note": ""
  },
  {
   "property": "C07",
   "status": "proved",
   "theorems": [
    "C07_uvarint_roundtrip",
    "C07_uvarint_format",
    "C07_uvarint_value",
    "C07_uvarint_zero",
    "C07_uint32_roundtrip",
    "C07_uint32_format",
    "C07_trigram_roundtrip"
   ],
   "note": ""
  },
  {
   "property": "C08",
   "status": "proved",
   "theorems": [
    "C08_sparse_set",
    "C08_spec_deterministic"
   ],
   "note": ""
  },
  {
   "property": "C09",
   "status": "proved",
   "theorems": [
    "C09_sort_post"
   ],
   "note": ""
  },
  {
   "property": "C10",
   "status": "proved",
   "theorems": [
    "C10_merge",
    "C10_exhausted"
   ],
   "note": ""
  },
  {
   "property": "C11",
   "status": "proved",
   "theorems": [
    "C11_criteria",
    "C11_add_returns",
    "C11_rejected_no_trace",
    "C11_chunking"
   ],
   "note": ""
  },
  {
   "property": "C12",
   "status": "proved",
   "theorems": [
    "C12_peek",
    "C12_any_cut",
    "C12_byte_pairs",
    "C12_small_exact"
   ],
   "note": ""
  },
  {
   "property": "C13",
   "status": "proved",
   "theorems": [
    "C13_bufwriter"
   ],
   "note": ""
  },
  {
   "property": "C14",
   "status": "partial",
   "theorems": [
    "C14_utf8_partial",
    "C14_any_bytes_partial",
    "C14_surrogate_refuted",
    "C14_two_rune_class_refuted",
    "C14_high_fold_refuted"
   ],
   "note": "The compiled program matches exactly the lines the rune program matches (whole programs, all lines of valid UTF-8; on other bytes only encoded surrogates are accepted in addition). Restricted to classes without a range boundary close to the surrogates, without non-ASCII two-rune case pairs, and without case-insensitive runes above U+1044F; each restriction is shown necessary by a refutation."
  },
  {
   "property": "C15",
   "status": "proved",
   "theorems": [
    "C15_first_matching_line",
    "C15_compiles",
    "C15_lines_exist"
   ],
   "note": ""
  },
  {
   "property": "C16",
   "status": "proved",
   "theorems": [
    "C16_history_independent",
    "C16_always_answers"
   ],
   "note": ""
  },
  {
   "property": "C17",
   "status": "partial",
   "theorems": [
    "C17_exact",
    "C17_matching_lines_partial",
    "C17_lines_exist",
    "C17_phantom_line_refuted",
    "C17_begin_text_refuted"
   ],
   "note": "C17_exact characterises the reported lines for every valid program. In terms of matching lines it holds for programs without \\A that do not match the empty line at the end of the text (partial); both exceptions are refuted with witnesses."
  },
  {
   "property": "C18",
   "status": "partial",
   "theorems": [
    "C18_after",
    "C18_before_partial",
    "C18_before_exact",
    "C18_empty_line_refuted",
    "C18_previous_match_refuted"
   ],
   "note": "Following lines are exact. Preceding lines are exact up to the code's treatment of an empty first line and of lines already consumed by an earlier match, which are refuted with witnesses."
  },
  {
   "property": "C19",
   "status": "proved",
   "theorems": [
    "C19_complete"
   ],
   "note": ""
  },
  {
   "property": "C20",
   "status": "proved",
   "theorems": [
    "C20_pagination"
   ],
   "note": ""
  },
  {
   "property": "C21",
   "status": "proved",
   "theorems": [
    "C21_max_results"
   ],
   "note": ""
  },
  {
   "property": "C22",
   "status": "partial",
   "theorems": [
    "C22_filters_partial",
    "C22_other_files",
    "C22_exclude_refuted"
   ],
   "note": "Holds for names that do not start with a newline; the exclude filter is compared with > 0 and misses names starting with one (refuted with a witness)."
  },
  {
   "property": "C23",
   "status": "partial",
   "theorems": [
    "C23_search_exact",
    "C23_matching_lines_partial",
    "C23_repository_partial",
    "C23_expression_partial",
    "C23_expression_repository_partial",
    "C23_literal_partial",
    "C23_programs_exist",
    "C23_shared_storage_refuted",
    "C23_parsed_partial",
    "C23_parsed_repository_partial"
   ],
   "note": "Four levels. (1) C23_search_exact: all programs, in terms of C17/C18's line scan. (2) C23_matching_lines_partial, C23_repository_partial: matching lines of the byte program, with C17's restrictions. (3) C23_expression_partial, C23_expression_repository_partial, C23_literal_partial: matching lines of the regular expression itself, composing RegexpQuery (C01), toByteProg (C14), the matcher, the index and the search; assumed is that the rune program matches the lines the expression matches, which C23_programs_exist shows satisfiable for every expression. (4) C23_parsed_partial, C23_parsed_repository_partial: nothing assumed of the program, which is made by the models of Simplify and syntax.Compile (C73). Missing at levels 3 and 4: \\A, expressions that match the empty line behind the last newline but not every line (like ^$), analysis with shared storage; C23_shared_storage_refuted shows a whole search that misses the only matching file in the last case."
  },
  {
   "property": "C24",
   "status": "partial",
   "theorems": [
    "C24_every_file_partial",
    "C24_read_error_refuted",
    "C24_unreadable_dir_refuted"
   ],
   "note": "C24_every_file_partial: for trees whose files read without error and whose directories are readable, every regular file reachable without a dotted/special component is either indexed (with its contents) or listed exactly once in the exclusion report with a true reason, and nothing else is indexed. The full statement is false: C24_read_error_refuted (a file whose read fails midway is neither indexed nor listed) and C24_unreadable_dir_refuted (files in an unreadable directory are neither indexed nor listed)."
  },
  {
   "property": "C25",
   "status": "partial",
   "theorems": [
    "C25_open_partial",
    "C25_stable_partial",
    "C25_refuted",
    "C25_no_deadlock"
   ],
   "note": "Refuted in full: when destroying the old index fails the code destroys the new, live one. Without such failures searches only touch open indexes; a search always sees one unchanged index."
  },
  {
   "property": "C26",
   "status": "partial",
   "theorems": [
    "C26_one_index",
    "C26_latest",
    "C26_not_stale",
    "C26_only_new",
    "C26_tree_partial",
    "C26_tree_refuted"
   ],
   "note": "A search sees one index, the latest published one. That the index holds the tree of its revision is refuted when two repositories share a Url (one working copy); proved otherwise."
  },
  {
   "property": "C27",
   "status": "partial",
   "theorems": [
    "C27_partial",
    "C27_tries_again_partial",
    "C27_swap_refuted",
    "C27_never_recovers",
    "C27_exit_refuted"
   ],
   "note": "A failed pull leaves the index alone. Refuted for a failed swap (the new index is destroyed while live, and it never recovers) and for build or open failures that end the process."
  },
  {
   "property": "C28",
   "status": "proved",
   "theorems": [
    "C28_bounded",
    "C28_no_leak",
    "C28_turn"
   ],
   "note": "Bound, absence of leaks and progress for every waiter in fair executions."
  },
  {
   "property": "C29",
   "status": "proved",
   "theorems": [
    "C29_reports",
    "C29_ends"
   ],
   "note": "Every return of MakeAll reports each repository once; in fair executions startup ends."
  },
  {
   "property": "C30",
   "status": "partial",
   "theorems": [
    "C30_partial",
    "C30_never_blocks",
    "C30_one_pending",
    "C30_refuted"
   ],
   "note": "Refuted for requests acknowledged before the update loop has passed its gate; proved for all later ones."
  },
  {
   "property": "C31",
   "status": "partial",
   "theorems": [
    "C31_partial",
    "C31_polled_partial",
    "C31_refuted"
   ],
   "note": "Refuted: the signal can be taken before the flag is written. Proved when it is not, and for polled repositories in any case."
  },
  {
   "property": "C32",
   "status": "proved",
   "theorems": [
    "C32_reused",
    "C32_finished",
    "C32_built",
    "C32_removed"
   ],
   "note": "Histories of one database path over any number of starts, crashes at every write, failed builds, updates and cleanings. The gob codec of the manifest is a parameter with two laws (decodes what was encoded; does not decode a proper prefix). Directory names are taken never to repeat. C32_removed assumes that no pull gives an empty revision of an empty Url."
  },
  {
   "property": "C33",
   "status": "partial",
   "theorems": [
    "C33_partial",
    "C33_others_partial",
    "C33_refuted",
    "C33_stuck_refuted"
   ],
   "note": "Refuted: removal goes file by file and the manifest is not removed first, so a crash in between leaves a directory that the next start takes for a finished index (C33_refuted), or that ends every start (C33_stuck_refuted). Proved: never once the manifest is gone, and never for directories whose removal was not interrupted."
  },
  {
   "property": "C34",
   "status": "proved",
   "theorems": [
    "C34_exact",
    "C34_in_use"
   ],
   "note": "Assumes that no pull gives an empty revision of an empty Url. C34_in_use is about the whole start, for all interleavings with other repositories' builds."
  },
  {
   "property": "C35",
   "status": "partial",
   "theorems": [
    "C35_partial",
    "C35_untouched_partial",
    "C35_refuted"
   ],
   "note": "Proved for configurations without equal Urls. Two repositories with one Url share a directory after a restart, and the update of one removes the live index of the other (C35_refuted)."
  },
  {
   "property": "C36",
   "status": "partial",
   "theorems": [
    "C36_order_partial",
    "C36_result_partial",
    "C36_which_error_refuted",
    "C36_duplicate_refuted"
   ],
   "note": "For distinct repository names, every completion order gives the same result when no search fails and an error when one fails. Which error is reported depends on the order (C36_which_error_refuted), and when a request names a repository twice with different outcomes the response depends on the order too (C36_duplicate_refuted)."
  },
  {
   "property": "C37",
   "status": "partial",
   "theorems": [
    "C37_parameters_partial",
    "C37_fields",
    "C37_search_partial",
    "C37_configured_limit_refuted"
   ],
   "note": "Context is clamped to 0..20, client-supplied limits to -1..100000, malformed values give defaults, and no page range makes the search fail. The configured default limit is not clamped (C37_configured_limit_refuted)."
  },
  {
   "property": "C38",
   "status": "partial",
   "theorems": [
    "C38_list_partial",
    "C38_search_partial",
    "C38_excludes_partial",
    "C38_excludes_refuted"
   ],
   "note": "The list parser selects exactly the known names, and search and update touch nothing else. The excludes endpoint dereferences a nil searcher for an unknown name (C38_excludes_refuted)."
  },
  {
   "property": "C39",
   "status": "partial",
   "theorems": [
    "C39_update_partial",
    "C39_webhook",
    "C39_unknown_refuted"
   ],
   "note": "Updates are triggered only for POST and push-enabled repositories, and every status code is characterised. An update naming only unknown repositories is answered 200, not 404 (C39_unknown_refuted)."
  },
  {
   "property": "C40",
   "status": "proved",
   "theorems": [
    "C40_merge",
    "C40_load"
   ],
   "note": "encoding/json's decoder and encoder for objects are parameters; the theorem holds for every pair satisfying codec_ok (decode after encode is the identity; a toy codec shows it is satisfiable)."
  },
  {
   "property": "C41",
   "status": "proved",
   "theorems": [
    "C41_listing"
   ],
   "note": "Two configurations that differ only in vcs-config give the same repository listing."
  },
  {
   "property": "C42",
   "status": "partial",
   "theorems": [
    "C42_defaults_partial",
    "C42_file_partial",
    "C42_twice_partial",
    "C42_updates_partial",
    "C42_explicit_zero_refuted"
   ],
   "note": "Proved with 'missing' read as the zero value of the decoded structure. A setting given explicitly as zero or empty is overwritten (C42_explicit_zero_refuted)."
  },
  {
   "property": "C43",
   "status": "partial",
   "theorems": [
    "C43_merge_partial",
    "C43_server",
    "C43_ragged_context_refuted"
   ],
   "note": "Right for all matches of a file in which no match reaches further back than an earlier one, whatever the context (C43_merge_partial); C43_server shows that every server search produces such matches, so what the client shows of a search is right. For arbitrary ragged contexts lines are lost (C43_ragged_context_refuted)."
  },
  {
   "property": "C44",
   "status": "proved",
   "theorems": [
    "C44_inserts",
    "C44_strip",
    "C44_colours"
   ],
   "note": "hiliteMatches with any in-order disjoint positions inserts colour sequences only; stripping gives the line back when the line has no escape character of its own. regexp.FindAllStringIndex is a parameter (its result positions)."
  },
  {
   "property": "C45",
   "status": "partial",
   "theorems": [
    "C45_url_partial",
    "C45_name_partial",
    "C45_last_two_partial",
    "C45_root_refuted",
    "C45_exactly"
   ],
   "note": "A name is computed for exactly the URLs that are not '/' followed by no further '/'; for those uri[:ax-1] panics (C45_root_refuted)."
  },
  {
   "property": "C46",
   "status": "proved",
   "theorems": [
    "C46_answers",
    "C46_stays_ready",
    "C46_health",
    "C46_no_deadlock"
   ],
   "note": "Transition system of any number of requests with the RWMutex and the switch; the answers of the mux itself are abstract."
  },
  {
   "property": "C47",
   "status": "partial",
   "theorems": [
    "C47_partial",
    "C47_again_partial",
    "C47_built",
    "C47_succeeds_partial",
    "C47_sorted",
    "C47_refuted",
    "C47_walk_refuted"
   ],
   "note": "Proved for newer indexes whose sorted paths end in a byte below 0x7f and cover their names, and for names in step with these paths (sorted names are, C47_sorted). Refuted in general: merge.go:69 bounds a path by the UTF-8 encoding of its last byte plus one, and filepath.Walk order is not string order, so files of the older index that the newer one does not cover can be lost. A path covers every name it is a prefix of, also outside its directory (Example C47_component). The final size of the merged file is not checked by the code, the theorems assume it stays below 4 GB."
  },
  {
   "property": "C48",
   "status": "partial",
   "theorems": [
    "C48_others_partial",
    "C48_git_partial",
    "C48_git_fetch_refuted"
   ],
   "note": "The hg, svn and bzr drivers report every failing command; git reports clone and rev-parse failures. git fetch and reset failures are swallowed by run (C48_git_fetch_refuted)."
  },
  {
   "property": "C49",
   "status": "partial",
   "theorems": [
    "C49_listing_partial",
    "C49_configured_partial",
    "C49_other_sources",
    "C49_failed",
    "C49_flag",
    "C49_set_refuted",
    "C49_config_hides_refuted",
    "C49_configured_indexes_partial",
    "C49_first_listing_partial",
    "C49_updated_refuted"
   ],
   "note": "Proved for 'the attribute has the value true' and an empty configured list. An attribute that is set without value is not recognised (C49_set_refuted), and a configured list replaces the attributes (C49_config_hides_refuted). C49_other_sources: for hg, svn, bzr and local sources no program is run and only a configured list counts. C49_failed: git that fails means none. Over the life of a searcher (C49_configured_indexes_partial, C49_first_listing_partial): every index it builds has the configured list or the marks of the revision pulled at its start; marks of later revisions are missed (C49_updated_refuted)."
  },
  {
   "property": "C50",
   "status": "proved",
   "theorems": [
    "C50_target",
    "C50_pull"
   ],
   "note": "Also: exactly that reference is fetched and reset to (C50_pull). Detection succeeds means the output of git remote show names a branch."
  },
  {
   "property": "C51",
   "status": "partial",
   "theorems": [
    "C51_partial",
    "C51_reused_partial",
    "C51_refuted"
   ],
   "note": "Refuted: find compares Url and revision only, so an index built under other options is reused as long as the revision does not change. Proved for indexes built by the running process; for reused ones the options were once configured for the Url."
  },
  {
   "property": "C52",
   "status": "partial",
   "theorems": [
    "C52_calls_partial",
    "C52_printed_partial",
    "C52_long_line_refuted",
    "C52_phantom_refuted"
   ],
   "note": "Exact for inputs whose lines fit into the buffer with their newline and programs that do not match an empty line after the first, whatever the reader does. Refuted without these: a line of 2^20 bytes makes the loop run forever (C52_long_line_refuted), and a program that matches the empty line reports lines that do not exist at buffer boundaries and shifts later numbers (C52_phantom_refuted). %d and the error text are parameters."
  },
  {
   "property": "C53",
   "status": "proved",
   "theorems": [
    "C53_output",
    "C53_server",
    "C53_rows"
   ],
   "note": "For repositories whose display name can be computed (see C45_root_refuted for the others) and matches that come from files, which C53_server shows for the answers of the server. Match positions of the marking expression are a parameter. A failing write is taken to write nothing."
  },
  {
   "property": "C54",
   "status": "partial",
   "theorems": [
    "C54_request_partial",
    "C54_address",
    "C54_pattern",
    "C54_context_replaced",
    "C54_context_refuted"
   ],
   "note": "Proved for 0 to 20 lines of context; other numbers are replaced by 20 or 2 without notice (C54_context_replaced, C54_context_refuted). The escaping and parsing of net/url are modelled, the host has no question mark or hash."
  },
  {
   "property": "C55",
   "status": "partial",
   "theorems": [
    "C55_runs",
    "C55_reported_partial",
    "C55_members",
    "C55_failed_search",
    "C55_failed_search_refuted"
   ],
   "note": "The client ends in four steps in every schedule and reports transport failures, statuses other than 200 and unreadable replies of its own. Refuted in full: a failed search is answered with status 200 and an Error field the client does not read, so it shows an empty result (C55_failed_search_refuted)."
  },
  {
   "property": "C56",
   "status": "partial",
   "theorems": [
    "C56_text_partial",
    "C56_replaced_partial",
    "C56_number",
    "C56_invalid_refuted"
   ],
   "note": "Proved for valid UTF-8 and for all line numbers. Bytes that are not UTF-8 are replaced by U+FFFD, and lines with such bytes are searched because only the first 2048 bytes of a file are checked (C56_invalid_refuted)."
  },
  {
   "property": "C57",
   "status": "partial",
   "theorems": [
    "C57_watched_partial",
    "C57_unwatched",
    "C57_unreadable",
    "C57_clone",
    "C57_unwatched_refuted",
    "C57_unreadable_refuted"
   ],
   "note": "Proved with watch-changes, readable files and no hash collisions among the texts hashed (the hash is a parameter). Without watch-changes the revision never changes; one unreadable file or a newline in a name leaves the directory without revision."
  },
  {
   "property": "C58",
   "status": "proved",
   "theorems": [
    "C58_arrives",
    "C58_exact",
    "C58_error"
   ],
   "note": "For distinct repository names in UTF-8 (they are read from JSON) and numbers in the range of int. FilesOpened of a single repository is not sent (json:\"-\"), it is 0 at the client."
  },
  {
   "property": "C59",
   "status": "partial",
   "theorems": [
    "C59_output_partial",
    "C59_directory",
    "C59_first_line_refuted"
   ],
   "note": "Partial: expressions without \\A that do not match an empty last line unless they match every line, UTF-8 texts, at most 20 lines of context, below the result limit. False for an empty first line near a match: it is not printed (C59_first_line_refuted; see also C01, C14, C17, C18, C54 for the other restrictions). C59_directory gives the searchers from directories."
  },
  {
   "property": "C60",
   "status": "partial",
   "theorems": [
    "C60_exit_idle",
    "C60_stop_heeded",
    "C60_exits_partial",
    "C60_exits_refuted"
   ],
   "note": "Proved: at the exit a signal has come, startup has returned, every loop has ended and all begun work is finished (C60_exit_idle); no Stop of the handler is dropped (C60_stop_heeded); the exit comes in every fair execution when each loop has a timer, is switched off, or does not take the token of Stop between the send and the write of the flag (C60_exits_partial). Without that condition it is false: a repository with push updates only can take the token, read the flag too early and wait for ever, and so does the handler (C60_exits_refuted)."
  },
  {
   "property": "C61",
   "status": "proved",
   "theorems": [
    "C61_clients",
    "C61_patterns",
    "C61_operand_again"
   ],
   "note": "Proved for clients that use each query once (C61_clients) and for RegexpQuery on any sequence of patterns (C61_patterns). C61_operand_again shows why the restriction is needed: an operand of and means something else afterwards. The goroutines of a server are run one after the other here; since each writes only to memory it allocated and the constants are never written, there is nothing for them to race on."
  },
  {
   "property": "C62",
   "status": "proved",
   "theorems": [
    "C62_place"
   ],
   "note": "For git the commands between clone and rev-parse are those of C50; their failures are not noticed (C48)."
  },
  {
   "property": "C63",
   "status": "partial",
   "theorems": [
    "C63_list",
    "C63_listing_partial",
    "C63_listing_refuted"
   ],
   "note": "C63_list: the bytes of excluded_files.json decode to exactly the list, with the documented sentences. C63_listing_partial: every listing is of an index that was live before it, and readable if still live and no swap failed. Missing: a listing overtaken by a successful update is empty (C63_listing_refuted). The number printed by %0.2f is an arbitrary ASCII text."
  },
  {
   "property": "C64",
   "status": "proved",
   "theorems": [
    "C64_same",
    "C64_repos",
    "C64_no_markup"
   ],
   "note": "C64_same: page and API texts are equal. C64_repos: the text decodes to one member per searcher with the configured values under literal names. C64_no_markup: no & < > in the text. html/template, which further escapes the page, is not modelled."
  },
  {
   "property": "C65",
   "status": "proved",
   "theorems": [
    "C65_answer",
    "C65_error",
    "C65_written",
    "C65_read",
    "C65_accepted"
   ],
   "note": "C65_answer, C65_error: the bytes written are a strict JSON text of a value with the literal member names. C65_written: the same for every value printed. C65_read: the decoder is complete for the grammar. C65_accepted: it is sound for the grammar with replacement."
  },
  {
   "property": "C66",
   "status": "partial",
   "theorems": [
    "C66_config",
    "C66_refusal",
    "C66_request_partial",
    "C66_repos_address",
    "C66_request_refuted"
   ],
   "note": "C66_config: the host and headers from valid files. C66_refusal: whatever is loaded was valid. C66_request_partial: requests carry all headers in every order of the map. Missing: names equal up to case, where the value sent depends on the order of the map (C66_request_refuted). C66_example shows that a given --host is overruled by a file. U+017F in member names is not modelled."
  },
  {
   "property": "C67",
   "status": "partial",
   "theorems": [
    "C67_written_partial",
    "C67_read",
    "C67_entries_refuted",
    "C67_sorted_refuted",
    "C67_merge_refuted"
   ],
   "note": "C67_written_partial: what Flush leaves, byte for byte, and which posting lists. C67_read: any such file is read back. Missing, and refuted: the last empty list does have an index entry (C67_entries_refuted), names are in the order of filepath.Walk and not sorted (C67_sorted_refuted), Merge leaves out the empty name that ends the name list (C67_merge_refuted). File names are assumed non-empty."
  },
  {
   "property": "C69",
   "status": "proved",
   "theorems": [
    "C69_reads",
    "C69_refuses",
    "C69_load"
   ],
   "note": "C69_reads for JSON with UTF-8 texts; C69_refuses for everything that is accepted; C69_load adds the defaults. Member names are compared up to ASCII case only."
  },
  {
   "property": "C70",
   "status": "partial",
   "theorems": [
    "C70_load_partial",
    "C70_null_repo_refuted",
    "C70_null_settings_refuted"
   ],
   "note": "C70_load_partial: the only causes of a crash are null for a repository and null for the settings of a VCS. Both crash (C70_null_repo_refuted, C70_null_settings_refuted)."
  },
  {
   "property": "C68",
   "status": "partial",
   "theorems": [
    "C68_driver_partial",
    "C68_known",
    "C68_null",
    "C68_not_object",
    "C68_case_refuted",
    "C68_null_refuted",
    "C68_alias_refuted"
   ],
   "note": "Proved for options given under their very names with values of their types (not null). Refuted in full: a global value wins over the repository's own when the repository writes the name in other case, null hides the global value, settings for svn do not reach a repository whose vcs is subversion. What the drivers do with the options is C48, C50, C57 and C62. Also: no settings or null give the defaults, and settings that are neither an object nor null are an error for the drivers that have settings."
  },
  {
   "property": "C71",
   "status": "proved",
   "theorems": [
    "C71_routing",
    "C71_answered",
    "C71_once",
    "C71_patterns",
    "C71_registers"
   ],
   "note": "routed (Spec/MuxSpec.v) says it with the names between slashes and literal paths. http.ServeMux as of Go 1.21; embedded names are distinct. C71_patterns: what the mux does for any patterns registered, not just hound's; C71_registers: registering succeeds just when the patterns are distinct and non-empty."
  },
  {
   "property": "C72",
   "status": "partial",
   "theorems": [
    "C72_start",
    "C72_excluded",
    "C72_search_partial",
    "C72_search_refuted"
   ],
   "note": "The OpenSearch description puts the Host header into XML as it is: with & in it, which the server lets through, it is not well-formed (C72_search_refuted; C72_search_partial for other hosts). NUL in a title is shown as U+FFFD."
  },
  {
   "property": "C73",
   "status": "partial",
   "theorems": [
    "C73_compiles",
    "C73_first_line_partial",
    "C73_lines_partial",
    "C73_simplify",
    "C73_rune_program",
    "C73_two_variants_refuted"
   ],
   "note": "Simplify and Compile of regexp/syntax (Go 1.21), toByteProg and the matcher are models; the parser's result is the input. C73_compiles, C73_simplify, C73_rune_program are complete for parsed expressions; C73_first_line_partial, C73_lines_partial leave out texts with encoded surrogates (C14) and classes runes_ok excludes; C73_two_variants_refuted shows that the latter is necessary."
  },
  {
   "property": "C74",
   "status": "partial",
   "theorems": [
    "C74_text_found_partial",
    "C74_same_bytes",
    "C74_refused",
    "C74_late_letters_refuted"
   ],
   "note": "QuoteMeta and the parser on the patterns it makes (plain characters, escaped punctuation, (?m)/(?i) groups) are models (Go 1.21); other patterns are left open. C74_text_found_partial leaves out letters beyond U+1044F that have variants when case is ignored (copy.go has maxFold = 0x1044f; C74_late_letters_refuted: such a text is not found even in a file that consists of it), files that are not UTF-8 (C14), name filters, offset and limit (C20-C22). C74_same_bytes: with regard to case the lines contain the bytes of the request. C74_refused: errors."
  },
  {
   "property": "C75",
   "status": "partial",
   "theorems": [
    "C75_merge_partial",
    "C75_server",
    "C75_ragged_context_refuted"
   ],
   "note": "Right for all matches of a file in which no match reaches further back than an earlier one (C75_merge_partial), which is what every search of the server returns (C75_server). For other contexts lines are lost (C75_ragged_context_refuted). hound.js is read as text; the DOM nodes React makes of the rows are not modelled."
  },
  {
   "property": "C76",
   "status": "partial",
   "theorems": [
    "C76_reading",
    "C76_text_partial",
    "C76_ends_partial",
    "C76_marks_partial",
    "C76_literal",
    "C76_empty_match_refuted",
    "C76_anchor_refuted"
   ],
   "note": "The browser's expression is an input (exec); html is read by the relation shown (text, em, four character references; C76_reading: it is a function). A line has no newline and, here, no NUL (which browsers drop). C76_ends_partial: expressions that find nothing empty; for others the page hangs (C76_empty_match_refuted: a* on a line with a b). C76_marks_partial: expressions whose matches do not depend on what is before them; ^a emphasises more (C76_anchor_refuted). C76_literal is the full claim for literal searches with regard to case."
  },
  {
   "property": "C77",
   "status": "partial",
   "theorems": [
    "C77_shown_partial",
    "C77_goes_on_partial",
    "C77_all_partial",
    "C77_everything_partial",
    "C77_order",
    "C77_server",
    "C77_twice_refuted",
    "C77_late_answer_refuted",
    "C77_late_load_refuted",
    "C77_empty_query_refuted",
    "C77_no_stats_refuted"
   ],
   "note": "For a user who waits and a server that answers with the asked range: what is shown is right, nothing raises an exception, everything can be loaded (C77_all_partial for one repository, C77_everything_partial from the search on for all of them). C77_server: the modelled Go server is such a server if its configured limit cuts nothing off. Refuted in full: a second press before the answer shows files twice; a late answer to an earlier search, or to more of an earlier search, is shown for the new one; an empty query and stats=nope in the address raise an exception. The exception of an expression that the browser does not accept is in C85 (Model/PageSay.v)."
  },
  {
   "property": "C78",
   "status": "partial",
   "theorems": [
    "C78_reading",
    "C78_reopened_partial",
    "C78_unsaid",
    "C78_nothing_said",
    "C78_boxes",
    "C78_names_refuted",
    "C78_surrogate_refuted"
   ],
   "note": "Partial: repository names are put into the address without encoding, so names with & = + # % come back as others, as all repositories, or as an exception; a query with half a surrogate pair raises an exception before the search (both refuted). The browser's part (URL standard) and URI coding (ECMA-262) are modelled from their standards."
  },
  {
   "property": "C79",
   "status": "partial",
   "theorems": [
    "C79_valid_partial",
    "C79_searched_partial",
    "C79_prototype_refuted",
    "C79_comma_refuted",
    "C79_space_refuted"
   ],
   "note": "Partial, for ordinary names. Refuted otherwise: a repository called constructor (or any name of Object.prototype) is dropped from the selection, so everything is searched; a name with a comma is searched as others; a name with a space in front is not found."
  },
  {
   "property": "C80",
   "status": "partial",
   "theorems": [
    "C80_pattern_partial",
    "C80_line_partial",
    "C80_file_partial",
    "C80_wiki_partial",
    "C80_usual_partial",
    "C80_distinct_partial",
    "C80_repeat_refuted",
    "C80_dollar_refuted",
    "C80_brace_refuted",
    "C80_hash_refuted",
    "C80_wiki_refuted",
    "C80_number_refuted",
    "C80_excluded_refuted"
   ],
   "note": "Partial, for values without $ and { and patterns with each name once. Refuted otherwise: a name used twice is filled in once; $$ in a path becomes $; a path with {anchor} breaks the link; # in a path is not escaped, so two places share a link; .wiki earlier in an address is replaced instead of the last; git@host:1/o/n is read as port 1; every link on the page of excluded files is to the revision 'undefined' (C80_excluded_refuted states what they are for all paths)."
  },
  {
   "property": "C81",
   "status": "proved",
   "theorems": [
    "C81_raise",
    "C81_throw",
    "C81_tap",
    "C81_untap"
   ],
   "note": "Proved for all terminating executions; arrays are objects in a heap, so a change in place would be seen by a dispatch under way. C81_throw: an exception in a handler ends the dispatch."
  },
  {
   "property": "C82",
   "status": "partial",
   "theorems": [
    "C82_display",
    "C82_no_slash",
    "C82_one_slash_partial",
    "C82_two_slashes_partial",
    "C82_empty_refuted",
    "C82_double_refuted",
    "C82_front_refuted",
    "C82_number_partial",
    "C82_number_refuted"
   ],
   "note": "Partial, for addresses without empty parts. Refuted otherwise: h/.git is called nothing by the page; h//n is ' / n' on the page and n in the client; /n stops the client and is '/ / n' on the page; numbers from 2^31 (25 days in milliseconds) come out negative."
  },
  {
   "property": "C83",
   "status": "partial",
   "theorems": [
    "C83_built_partial",
    "C83_failed",
    "C83_only_temporary",
    "C83_search",
    "C83_mapping",
    "C83_handles_refuted",
    "C83_temp_refuted"
   ],
   "note": "Refuted in full: the three temporary files of an IndexWriter are removed but never closed (C83_handles_refuted; every made update leaves three more, C83_mapping; Go's finalizers are not modelled), and if indexing fails they stay on disk (C83_temp_refuted, C83_failed). Proved: no temporary file and no mapping is left by a build that succeeds, including the chunks of 64 MB (whose mapping can be released only because a chunk is a whole number of pages), searches leave nothing open, and a searcher has one mapping at most."
  },
  {
   "property": "C84",
   "status": "partial",
   "theorems": [
    "C84_shown_partial",
    "C84_answered_partial",
    "C84_no_exception",
    "C84_failed",
    "C84_late_refuted",
    "C84_late_failure_refuted",
    "C84_never_selected",
    "C84_selected_refuted"
   ],
   "note": "Proved if the user waits for each answer or failure (C84_shown_partial), and that no exception is thrown in any order (C84_no_exception). Refuted in full: with two presses and answers out of order, or a second one that fails, the files of one repository are shown with the links of another (C84_late_refuted, C84_late_failure_refuted); a failed request leaves the page saying it is searching (C84_failed); no button is ever marked as selected since a name is compared with an object (C84_never_selected, C84_selected_refuted)."
  },
  {
   "property": "C85",
   "status": "partial",
   "theorems": [
    "C85_searching_partial",
    "C85_answer_partial",
    "C85_not_stuck_partial",
    "C85_old_error_refuted",
    "C85_edited_refuted",
    "C85_stuck_refuted",
    "C85_blank_refuted"
   ],
   "note": "Proved: searching is said if no error was shown (C85_searching_partial), an answer that comes next is shown with the right expression (C85_answer_partial), and the page is never stuck if all expressions can be made (C85_not_stuck_partial, all orders of events). Refuted: an old error stays while the next search is under way (C85_old_error_refuted); the form edited meanwhile changes what is marked (C85_edited_refuted); an expression with flags as in Go leaves the page saying Searching for ever (C85_stuck_refuted); an address with a blank before the expression marks another one (C85_blank_refuted). trim, EscapeRegExp and the RegExp constructor are parameters; the witnesses use instances that agree with ECMA-262 on the texts in them."
  },
  {
   "property": "C86",
   "status": "proved",
   "theorems": [
    "C86_known"
   ],
   "note": "Names of repositories come from JSON and are UTF-8 (C69). The health check's address is not /. The script embedded in the page has no </script> and no <!-- (whole_script)."
  },
  {
   "property": "C87",
   "status": "partial",
   "theorems": [
    "C87_special",
    "C87_copy_partial",
    "C87_local_partial",
    "C87_local_refuted"
   ],
   "note": "C87_special is unconditional. C87_copy_partial and C87_local_partial leave out files that cannot be read to their end and files in unreadable directories (C24_*_refuted), and for a local directory ask that its own name is not hidden; C87_local_refuted shows that this is needed."
  },
  {
   "property": "C88",
   "status": "partial",
   "theorems": [
    "C88_local_partial",
    "C88_link_refuted",
    "C88_missing_refuted",
    "C88_relative_refuted",
    "C88_relative_panic_refuted"
   ],
   "note": "C88_local_partial is for absolute paths of directories; the other theorems refute the statement for links, missing paths and relative paths. A file system is a function from absolute paths to what Lstat sees; at most 40 links are followed."
  },
  {
   "property": "C89",
   "status": "partial",
   "theorems": [
    "C89_killed",
    "C89_exited",
    "C89_panicked",
    "C89_once",
    "C89_failure_partial",
    "C89_at_once_refuted",
    "C89_interrupted_refuted"
   ],
   "note": "Proved: a kill only before any work, exit status 0 only after SIGTERM and startup with all work ended, the causes of panics, one end only, and in fair runs a failed listener ends the process if startup ends. False of the code: the error of the listener is only read after startup (web.go:84), so a taken port is noticed after any amount of cloning and indexing; and the panic does not wait for the update loops."
  },
  {
   "property": "C90",
   "status": "partial",
   "theorems": [
    "C90_shape",
    "C90_fresh_partial",
    "C90_rendered",
    "C90_repo",
    "C90_more",
    "C90_file",
    "C90_toggle",
    "C90_all",
    "C90_closed_refuted",
    "C90_late_refuted",
    "C90_link_refuted"
   ],
   "note": "Proved for a user who waits for the answer of a search before the next; loading more and all clicks without restriction. False of the code: a repository that was closed gets open files when more of it is loaded; when two searches are under way the second answer takes over what was open by place; following the link in the title of a file also opens or closes it. The behaviour of react 0.12 (components kept by place, state set after all handlers) is part of the model."
  },
  {
   "property": "C91",
   "status": "partial",
   "theorems": [
    "C91_page_partial",
    "C91_all_partial"
   ],
   "note": "C91_page_partial composes C74, C77 and C75: from the text in the box to the rows on the page. Left out, and refuted where they were proved on their own: letters beyond U+1044F when case is ignored (C74_late_letters_refuted), users who do not wait (C77_twice_refuted, C77_late_answer_refuted, C77_late_load_refuted), a reached configured limit (C22); also filters on names (C20), files that are not UTF-8 (C14). The example is a complete visit computed by the model. C91_all_partial: a search leads to a page with all of the files, if the server replies; that it does in the example is shown beside it."
  },
  {
   "property": "C92",
   "status": "partial",
   "theorems": [
    "C92_page_partial",
    "C92_all_partial"
   ],
   "note": "C92_page_partial composes C23, C22, C77 and C75 for every expression the parser delivers (stands_for ties the texts of the search to the expressions through compile, as C59 does). Left out, each refuted where it was proved on its own: C17's and C01's expressions, names that start with a newline (C22_exclude_refuted), users who do not wait (C77), a reached limit, files that are not UTF-8. The example is a complete visit with an exclude filter, computed by the model. C92_all_partial: a search leads to a page with all of the files, if the server replies; that it does in the example is shown beside it."
  },
  {
   "property": "C93",
   "status": "partial",
   "theorems": [
    "C93_arrives",
    "C93_where",
    "C93_same",
    "C93_form_partial",
    "C93_within",
    "C93_spaces_refuted",
    "C93_half_refuted"
   ],
   "note": "C93_arrives: every list of names and values in well-formed UTF-16 arrives in UTF-8, through encodeURIComponent, reqwest's toQueryString (with its plus signs), the browser's URL parser and net/url's parser. C93_same ties this to the parameters that the theorems about page and server (C77, C91, C92) hand to the server directly. C93_form_partial is the search of a form; missing is the white space around the texts, which the page cuts off even for plain text (C93_spaces_refuted), and half characters (C93_half_refuted: an exception). C93_within: the trimmed text exists and is unique."
  },
  {
   "property": "C94",
   "status": "partial",
   "theorems": [
    "C94_list_partial",
    "C94_chosen_partial",
    "C94_kept_partial",
    "C94_fields",
    "C94_written",
    "C94_start",
    "C94_seen_partial",
    "C94_opened_refuted",
    "C94_back_refuted",
    "C94_newline_refuted",
    "C94_up_refuted",
    "C94_hidden_repo_refuted",
    "C94_hidden_back_refuted",
    "C94_hidden_box_refuted"
   ],
   "note": "Proved: the texts and boxes sent are those shown (C94_fields), a text written into a field is the one sent from it, a tick turns its own box round and no other deed but going back changes them (C94_written), and those of the address until something is changed (C94_kept_partial: texts without newlines and outer white space); the repositories are those shown as selected if the address the page was opened with names none (C94_list_partial), or once the user has changed the selection after an answer (C94_chosen_partial); the advanced part comes up open exactly if something is in it (C94_start) and stays seen for a considerate user (C94_seen_partial). Refuted: opened with repos=a, the list shows a as selected but the next search is in all (C94_opened_refuted: React's state.value stays empty); going back searches the repositories of the address while list and button have others (C94_back_refuted); the advanced part is closed over filters in force after Up, with repositories in the address, after going back, and after Up from the paths with a box ticked (C94_up_refuted, C94_hidden_*_refuted); newlines are lost (C94_newline_refuted). ReactDOMSelect is modelled from the minified React in the repository."
  },
  {
   "property": "C95",
   "status": "partial",
   "theorems": [
    "C95_polled_partial",
    "C95_negative_refuted",
    "C95_overflow_refuted",
    "C95_only_asked",
    "C95_disabled"
   ],
   "note": "Proved: for delays from 0 (the default is put in) to 9223372036854 ms, in every fair execution another pull begins after any time, or the loop has ended after a stop signal (C95_polled_partial); without polling there are no more pulls than acknowledged requests and stop signals (C95_only_asked), without any updates none (C95_disabled). Refuted: a negative ms-between-poll is kept and starts no timer (C95_negative_refuted); 9223372036855 ms overflows time.Duration to a negative delay, with the same effect (C95_overflow_refuted)."
  },
  {
   "property": "C96",
   "status": "proved",
   "theorems": [
    "C96_search_returns",
    "C96_update_ends"
   ],
   "note": "In every fair execution of any number of searches and one update loop over the searcher's lock and the lock of each index (sync.RWMutex with its preference for a waiting writer), every called search returns and every begun update ends, also if destroying the old index fails and the new one is destroyed."
  },
  {
   "property": "C97",
   "status": "partial",
   "theorems": [
    "C97_polled_partial",
    "C97_pushed_partial",
    "C97_never_back",
    "C97_only_new",
    "C97_refuted"
   ],
   "note": "Proved for polled repositories (with the delays of C95) and after an acknowledged push request, provided no swap of indexes ever fails. Refuted in full: when a swap fails (Destroy of the old index), the new index is already the one searched and is then destroyed (searcher.go:117-125, 382-388), while the loop still remembers the old revision; if the source then goes back to that revision, every later pull finds nothing new and what is searched stays destroyed for ever although no pull or build ever fails. C97_never_back holds whatever fails. Pulls are taken to report the revision the source has at the moment of the pull (what the drivers report is C35-C37); an index is built from the tree as pulled."
  },
  {
   "property": "C98",
   "status": "partial",
   "theorems": [
    "C98_polled_partial",
    "C98_pushed_partial"
   ],
   "note": "Composition of C97 (liveness of updates), C24 (what is indexed) and C74 (literal search). Partial in what these leave out: failed swaps (C97_refuted), delays of C95, letters beyond U+1044F when case is ignored (C74), files that are not UTF-8, filters and limits (C20-C22), read errors in the middle of a file (C24). The raw copies are taken to be read back as written."
  },
  {
   "property": "C99",
   "status": "partial",
   "theorems": [
    "C99_explained_partial",
    "C99_few_partial",
    "C99_refuted"
   ],
   "note": "Proved: each directory is used or was left by a failure since the last start; the number is bounded by repositories + updates under way + failures. Refuted in full: failing builds leave their directories, without bound. Removals that fail are not in this model (Model/Swap.v has them)."
  },
  {
   "property": "C100",
   "status": "proved",
   "theorems": [
    "C100_no_waiting",
    "C100_bounded",
    "C100_ends",
    "C100_stays"
   ],
   "note": ""
  },
  {
   "property": "C101",
   "status": "partial",
   "theorems": [
    "C101_shown_partial",
    "C101_all_partial",
    "C101_spaces_refuted"
   ],
   "note": "Composition of C93 and C91. Left out: what C91 leaves out (files that are not UTF-8, letters beyond U+1044F when case is ignored, overlong texts, a user who does not wait, a configured limit that is reached), and white space around the text, which the page drops (C101_spaces_refuted: \" a.b \" typed as literal text shows a line without it)."
  },
  {
   "property": "C102",
   "status": "partial",
   "theorems": [
    "C102_shown_partial",
    "C102_in_the_end_partial"
   ],
   "note": "Composition of C97, C24 and C101 for any number of repositories sharing one execution of the server. Partial in what these leave out: failed swaps (C97_refuted), the delays of C95, files that are not UTF-8, letters beyond U+1044F when case is ignored, a limit on lines that is reached, a user who does not wait, white space around the text (C101_spaces_refuted). That the index in use at a time is made from the revision pulled, and its raw copies read back as written, are hypotheses about the outside (the file system and the driver)."
  },
  {
   "property": "C103",
   "status": "partial",
   "theorems": [
    "C103_alone_partial",
    "C103_someones",
    "C103_failed",
    "C103_stale_refuted",
    "C103_broken_refuted"
   ],
   "note": "Proved for a request between whose store and execution of the template no other request stores one, whatever happened before; in general the page is made from a template that some request read and stored no earlier than this one stored its own (C103_someones), and the error of a parse is reported by exactly the requests whose own parse failed (C103_failed). Refuted for overlapping requests: a slower request that read the file earlier puts back the old template (C103_stale_refuted) or none at all (C103_broken_refuted, a panic in a request whose own parse succeeded). Storing and loading the template are single steps; the data race on the two words of the interface is not modelled."
  },
  {
   "property": "C104",
   "status": "partial",
   "theorems": [
    "C104_asks",
    "C104_else",
    "C104_any",
    "C104_numbers",
    "C104_houndd_partial",
    "C104_houndd_refuted"
   ],
   "note": "hound is proved in full (C104_asks, C104_else, C104_any, C104_numbers). For houndd it is refuted that no argument is ignored: main does not look at flag.Args(), so a stray argument silently hides all flags after it (C104_houndd_refuted); C104_houndd_partial says what it starts with. The example has the surprises of hound: 010 is 8, a flag after the pattern is one argument too many, a pattern with a dash needs two dashes before it. What follows: C54 for the request, C66 for the host (a configuration file overrides -host)."
  },
  {
   "property": "C105",
   "status": "partial",
   "theorems": [
    "C105_printed_partial",
    "C105_in_the_end_partial"
   ],
   "note": "C105_printed_partial: for indices made from given working copies, one command line; C105_in_the_end_partial: over time. Missing: what C59 leaves out (at most 20 lines of context, files and names in UTF-8, fewer matching lines than the server's limit, an empty first line next to a match, C59_first_line_refuted) and what C97 leaves out. Patterns other than a quoted text are in C59, filters on file names too. The host of the request is any (it may come from the configuration file, C93)."
  },
  {
   "property": "C106",
   "status": "partial",
   "theorems": [
    "C106_read_partial",
    "C106_repo_partial",
    "C106_page_partial",
    "C106_lines_only",
    "C106_blank_refuted"
   ],
   "note": "C106_read_partial: the parser of regexp/syntax (Go 1.21, a model: the standard library is not in /repo) accepts the patterns and makes expressions with their meaning; C106_repo_partial: one repository, with filters on names and a limit on lines; C106_page_partial: the page. Left out: alternatives, named groups and \\p (Beyond in the model, nothing is said of them); counts of groups, flags, \\A, \\z, octal numbers of less than three digits, a \\Q without \\E and a ] that comes first in a class (modelled, but not among the patterns of the theorems); classes with ends of ranges between U+D000 and U+EFFF, classes that are the two cases of one letter beyond U+1044F, and classes of more than 500 characters when case is ignored (class_ok); patterns of more than 997 bytes (the limits on height and size are met without counting); letters beyond U+1044F when case is ignored (C74_late_letters_refuted); programs too large for the fuel (fits); ^$-like patterns at the end of a file (C106_blank_refuted; C106_lines_only: patterns that need a character or have no positions are no such patterns); what C92 leaves out on the page."
  },
  {
   "property": "C107",
   "status": "partial",
   "theorems": [
    "C107_refused_partial",
    "C107_repo_partial",
    "C107_answer_partial"
   ],
   "note": "C107_refused_partial: the parser of regexp/syntax (Go 1.21, a model) refuses the texts; C107_repo_partial: one repository; C107_answer_partial: the answer of the server. Left out: texts of more than 997 bytes; other faults (in classes, escapes, flags, texts that are not UTF-8), and faults after patterns that C106 leaves out; the text of the error."
  }
 ]
}