{"id": "C01", "title": "Search misses no file (trigram pre-filter is conservative)", "statement": "For every regular expression, the trigram query that a search derives from it is satisfied by every text that contains a match of the expression: the pre-filter may let extra files through, but it never drops a file that contains a match.", "quantifier": "all regular expressions (any nesting of literals, classes, case folding, concatenation, alternation, repetition, anchors), all texts, and every slice-growth policy of the runtime", "why_tests_cant": "The analysis juggles exact/prefix/suffix sets with cut-offs (7 exact strings, 20 set entries, length 3) and reuses slice storage; a missed trigram only shows up for the one expression/text pair nobody tried.", "anchors": ["codesearch/index/regexp.go:RegexpQuery", "codesearch/index/regexp.go:analyze", "codesearch/index/regexp.go:concat", "codesearch/index/regexp.go:alternate", "codesearch/index/regexp.go:simplify", "codesearch/index/regexp.go:simplifySet"]}
{"id": "C02", "title": "Boolean query combination preserves meaning", "statement": "Combining two trigram queries with AND (OR) yields a query that holds of a set of trigrams exactly when both (at least one) of the inputs hold, and combining never yields an empty AND/OR node that index lookup would misread.", "quantifier": "all pairs of well-formed queries, all trigram sets, both operators", "why_tests_cant": "The simplifier factors common trigrams out of unsorted lists and recurses; only a semantic equivalence over all trees rules out a dropped conjunct or a lost alternative.", "anchors": ["codesearch/index/regexp.go:andOr", "codesearch/index/regexp.go:implies", "codesearch/index/regexp.go:trigramsImply"]}
{"id": "C03", "title": "Index lookup evaluates the query exactly", "statement": "Evaluating a trigram query against an index returns exactly the ids of the indexed files whose trigram set satisfies the query, in strictly increasing order and without duplicates, including when the search is restricted to a candidate list.", "quantifier": "all indexes, all query trees, all restriction lists", "why_tests_cant": "nil-versus-empty slices, in-place list reuse and merge loops with shared cursors must be right for every tree shape and every posting list.", "anchors": ["codesearch/index/read.go:PostingQuery", "codesearch/index/read.go:postingQuery", "codesearch/index/read.go:postingAnd", "codesearch/index/read.go:postingOr", "codesearch/index/read.go:mergeOr"]}
{"id": "C04", "title": "Posting lists survive the write/read round trip", "statement": "After any sequence of files has been added and the index flushed, opening the resulting bytes and asking for the posting list of any trigram returns exactly the ids of the accepted files that contain this trigram, in increasing order; a trigram no file contains yields the empty list.", "quantifier": "all sequences of files with arbitrary contents and names, all trigrams, every in-memory buffer capacity (hence every pattern of temporary-file flushes), up to the 4 GB format limit", "why_tests_cant": "Radix sort, k-way heap merge, delta+varint coding and binary search compose; errors appear only for particular id gaps, counts or flush boundaries.", "anchors": ["codesearch/index/write.go:Flush", "codesearch/index/write.go:mergePost", "codesearch/index/read.go:Open", "codesearch/index/read.go:findList", "codesearch/index/read.go:PostingList"]}
{"id": "C05", "title": "File names survive the write/read round trip", "statement": "After any sequence of files has been added and the index flushed, the opened index reports as many files as were accepted and returns for the i-th id exactly the i-th accepted name; the declared paths are returned in order.", "quantifier": "all sequences of NUL-free names (and non-empty NUL-free paths)", "why_tests_cant": "Offsets into NUL-separated data depend on the lengths of all earlier names.", "anchors": ["codesearch/index/write.go:addName", "codesearch/index/write.go:Flush", "codesearch/index/read.go:Name", "codesearch/index/read.go:Paths"]}
{"id": "C06", "title": "The index does not depend on when buffers were flushed", "statement": "The bytes of the flushed index are the same whatever the capacity of the in-memory posting buffer, i.e. independent of how many temporary posting files were written and merged.", "quantifier": "all file sequences and all buffer capacities", "why_tests_cant": "The production capacity is 8M entries, so tests practically never exercise the multi-file merge.", "anchors": ["codesearch/index/write.go:flushPost", "codesearch/index/write.go:mergePost", "codesearch/index/write.go:postHeap"]}
{"id": "C07", "title": "Variable-length and fixed-width integers round-trip", "statement": "Every 32-bit value written to the index in variable-length form is read back unchanged and consumes exactly the bytes written, whatever follows; likewise the 4-byte big-endian form.", "quantifier": "all 32-bit values and all following bytes", "why_tests_cant": "2^32 values, five encoding lengths.", "anchors": ["codesearch/index/write.go:writeUvarint", "codesearch/index/write.go:writeUint32", "codesearch/index/read.go:uvarint"]}
{"id": "C08", "title": "The sparse set is a set, whatever garbage its memory holds", "statement": "After any sequence of additions and resets, membership, size and iteration order (insertion order) are those of a mathematical set, even if the backing memory initially contains arbitrary values and is never cleared on reset.", "quantifier": "all operation sequences, all initial memory contents", "why_tests_cant": "Correctness relies on never trusting uninitialised memory; tests always start from zeroed memory.", "anchors": ["codesearch/sparse/set.go:Set", "codesearch/sparse/set.go:Add", "codesearch/sparse/set.go:Has", "codesearch/sparse/set.go:Reset"]}
{"id": "C09", "title": "Posting entries are sorted correctly by the radix sort", "statement": "Sorting a buffer of posting entries whose entries were appended in file order yields the ascending arrangement of exactly the same entries.", "quantifier": "all buffers of entries with trigram below 2^24, appended in non-decreasing file id order", "why_tests_cant": "Two stable 12-bit passes with in-place count arrays; instability or an off-by-one shows only on particular digit distributions.", "anchors": ["codesearch/index/write.go:sortPost"]}
{"id": "C10", "title": "The k-way merge returns all entries in order", "statement": "Draining the merge heap over any collection of sorted chunks returns exactly all their entries, in ascending order, and then reports exhaustion forever.", "quantifier": "all numbers and sizes of chunks, all contents", "why_tests_cant": "Heap sift bugs surface only for particular shapes.", "anchors": ["codesearch/index/write.go:postHeap", "codesearch/index/write.go:siftDown", "codesearch/index/write.go:siftUp", "codesearch/index/write.go:next"]}
{"id": "C11", "title": "A file is indexed exactly when it meets the documented text criteria", "statement": "Adding a file to the index accepts it exactly when it has no impossible UTF-8 byte pair, is not longer than 32 MiB, does not have more than 20000 distinct trigrams together with a trigram/byte ratio above 0.1 (computed in single precision, which is exact up to 16 MiB and off by at most two bytes' worth above), and has no more than 10% of lines longer than 2000 bytes; a rejected file leaves the index unchanged, and the outcome does not depend on how the reader splits the content into chunks.", "quantifier": "all contents and all chunkings", "why_tests_cant": "The scan is a byte-level state machine fed by arbitrary read sizes.", "anchors": ["codesearch/index/write.go:Add", "codesearch/index/write.go:validUTF8"]}
{"id": "C12", "title": "Valid UTF-8 text is never rejected as invalid", "statement": "No file consisting of valid UTF-8 is rejected for invalid encoding, neither by the 2048-byte peek (even if the peek cuts a character in half) nor by the byte-pair test of the indexer.", "quantifier": "all valid UTF-8 byte strings and all cut points", "why_tests_cant": "Cut points fall on every offset of 2-, 3- and 4-byte sequences.", "anchors": ["index/index.go:isTextFile", "index/index.go:validUTF8IgnoringPartialTrailingRune", "codesearch/index/write.go:validUTF8"]}
{"id": "C13", "title": "The buffered writer is transparent", "statement": "Whatever sequence of byte, string and integer writes is issued, the file finally contains their concatenation and the reported offset is the number of bytes written so far.", "quantifier": "all write sequences, all buffer capacities (at least the largest integer encoding)", "why_tests_cant": "Boundary conditions when a write exactly fills, straddles or exceeds the buffer.", "anchors": ["codesearch/index/write.go:bufWriter", "codesearch/index/write.go:write", "codesearch/index/write.go:writeString", "codesearch/index/write.go:offset"]}
{"id": "C14", "title": "Character classes are compiled to exactly their UTF-8 encodings", "statement": "After compilation to a byte-level program, a rune class accepts exactly the byte strings that are the UTF-8 encodings of its runes (with its case-folding closure when case is ignored).", "quantifier": "all rune ranges, all byte strings", "why_tests_cant": "1.1 million code points, ranges crossing every encoding-length and leading-byte boundary.", "anchors": ["codesearch/regexp/utf.go:toByteProg", "codesearch/regexp/utf.go:addRange", "codesearch/regexp/utf.go:oneByteRange"]}
{"id": "C15", "title": "The line matcher finds exactly the first matching line", "statement": "Matching a buffer returns the end offset of the first line that contains a match of the program (respecting line/text anchors and word boundaries), or reports no match if no line does.", "quantifier": "all programs and all buffers", "why_tests_cant": "The matcher is an on-the-fly determinised automaton; each input drives it through different state sets.", "anchors": ["codesearch/regexp/match.go:match", "codesearch/regexp/match.go:computeNext", "codesearch/regexp/match.go:addq", "codesearch/regexp/match.go:stepByte"]}
{"id": "C16", "title": "A compiled expression can be reused indefinitely", "statement": "The result of matching an input with a compiled expression does not depend on which inputs it was used on before: the automaton cache never changes an answer.", "quantifier": "all programs and all histories of inputs", "why_tests_cant": "The cache is built lazily by aliasing states; a wrong key collides only for particular histories.", "anchors": ["codesearch/regexp/match.go:cache", "codesearch/regexp/match.go:enc", "codesearch/regexp/match.go:dec", "codesearch/regexp/match.go:match"]}
{"id": "C17", "title": "Every matching line is reported once, with its text and number", "statement": "Searching a file reports, in order and exactly once, each line that matches, with the line's exact text (without newline) and its 1-based number, and reports nothing else.", "quantifier": "all file contents, all patterns", "why_tests_cant": "Line arithmetic on buffers with/without trailing newline, empty lines, adjacent matches.", "anchors": ["index/grep.go:grep2", "index/grep.go:countLines"]}
{"id": "C18", "title": "Context lines are the lines around the match", "statement": "Each reported match carries as 'after' context exactly the following N lines (fewer at the end of file) and as 'before' context the preceding N lines (fewer at the start of file).", "quantifier": "all file contents, all match positions, all N", "why_tests_cant": "Edge cases at file start, after a previous match, with empty lines.", "anchors": ["index/grep.go:lastNLines", "index/grep.go:firstNLines", "index/grep.go:grep2"]}
{"id": "C19", "title": "A file is read completely whatever its size and the reader's chunking", "statement": "Reading a file into the search buffer yields exactly its contents, for every size, every initial buffer length and every way the reader delivers data; reader errors are reported, never turned into truncated content.", "quantifier": "all contents, all chunkings, all initial buffer sizes", "why_tests_cant": "The doubling loop is only exercised by files above 1 MiB.", "anchors": ["index/grep.go:fillFrom"]}
{"id": "C20", "title": "Pagination is a window on the full result", "statement": "A search with an offset and a limit returns exactly that window of the file list that an unlimited search returns, with the same matches per file, and reports the same total number of files with a match.", "quantifier": "all indexes, all offsets and limits", "why_tests_cant": "Counting happens inside a callback with early exits.", "anchors": ["index/index.go:Search"]}
{"id": "C21", "title": "The result limit is respected", "statement": "If a maximum number of results is set, the total number of matches returned never exceeds it, and the returned matches are a prefix of the unlimited result.", "quantifier": "all indexes and limits", "why_tests_cant": "The cut can fall inside a file, at a file boundary or never.", "anchors": ["index/index.go:Search"]}
{"id": "C22", "title": "File filters are respected", "statement": "No match is returned from a file whose name is rejected by the include pattern or hit by the exclude pattern, and filters never change the matches of other files.", "quantifier": "all file names, all filter predicates", "why_tests_cant": "Needs the whole space of names and filters.", "anchors": ["index/index.go:Search"]}
{"id": "C23", "title": "Search returns exactly the matching lines of the indexed files", "statement": "End to end: building an index of a set of files and searching it (no limits, no filters) returns a file if and only if some line of it matches, and lists for it exactly its matching lines.", "quantifier": "all file sets, all programs/expressions related by the regexp compiler", "why_tests_cant": "Composition of index writing, trigram pre-filter, matcher and line reporting.", "anchors": ["index/index.go:Build", "index/index.go:Search", "index/index.go:indexAllFiles"]}
{"id": "C24", "title": "Every file is either searchable or explained", "statement": "After a successful build every regular file outside excluded directories is either in the index (with its full content stored for grepping) or listed in excluded_files.json with a reason, never both and never twice; special files (.git etc.) and, if configured, dot files never get indexed.", "quantifier": "all directory trees and contents, all option settings", "why_tests_cant": "Tree-shaped input, many early exits.", "anchors": ["index/index.go:indexAllFiles", "index/index.go:addFileToIndex"]}
{"id": "C25", "title": "A search never touches a destroyed index", "statement": "In every interleaving of searches with index replacement, each search runs from start to finish on an index that is open and whose directory exists.", "quantifier": "all schedules of any number of searches and updates", "why_tests_cant": "Requires exploring interleavings around two nested locks.", "anchors": ["searcher/searcher.go:swapIndexes", "searcher/searcher.go:Search", "index/index.go:Destroy", "index/index.go:Search"]}
{"id": "C26", "title": "A search sees one revision only", "statement": "All results of one search come from a single revision, and after an update has been published every search that starts later sees that revision or a newer one. While no swap fails, an index is replaced only by one of another revision.", "quantifier": "all schedules", "why_tests_cant": "Race between pointer swap and readers.", "anchors": ["searcher/searcher.go:swapIndexes", "searcher/searcher.go:Search"]}
{"id": "C27", "title": "A failed update leaves the previous index serving", "statement": "Whatever step of an update fails (pull, build, open, replacing the old index), the repository stays searchable afterwards, and the update is tried again: a pull leads to a build exactly if it finds another revision than the one that is searched.", "quantifier": "all failure points and all sequences of updates", "why_tests_cant": "Failures of individual system calls cannot be enumerated by tests.", "anchors": ["searcher/searcher.go:updateAndReindex", "searcher/searcher.go:swapIndexes"]}
{"id": "C28", "title": "Concurrent indexing is bounded", "statement": "At no time are more repositories being pulled/indexed than the configured maximum, in every schedule, and slots are never leaked whatever fails.", "quantifier": "all schedules, numbers of repositories and failures", "why_tests_cant": "Needs all interleavings.", "anchors": ["searcher/searcher.go:limiter", "searcher/searcher.go:newSearcherConcurrent", "searcher/searcher.go:updateAndReindex"]}
{"id": "C29", "title": "Every configured repository ends up either searchable or in the error map", "statement": "Startup reports each configured repository exactly once, as a searcher or as an error, whatever the completion order of the workers.", "quantifier": "all completion orders and failure patterns", "why_tests_cant": "Concurrent completion order.", "anchors": ["searcher/searcher.go:MakeAll", "searcher/searcher.go:newSearcherConcurrent"]}
{"id": "C30", "title": "An accepted push update is eventually carried out", "statement": "If an update request is acknowledged while the searcher is running, a pull-and-reindex attempt starts after the request; requests never block and at most one is pending.", "quantifier": "all schedules of requests and the update loop", "why_tests_cant": "Depends on races on a one-slot channel.", "anchors": ["searcher/searcher.go:Update", "searcher/searcher.go:waitForUpdate", "searcher/searcher.go:begin"]}
{"id": "C31", "title": "Stop eventually stops the searcher", "statement": "After Stop has been called the update loop terminates after finishing the update it may be executing, without waiting for any further external event, so Wait returns.", "quantifier": "all schedules of Stop and the update loop", "why_tests_cant": "Race between a channel send and a flag write.", "anchors": ["searcher/searcher.go:Stop", "searcher/searcher.go:Wait", "searcher/searcher.go:waitForUpdate"]}
{"id": "C32", "title": "A crash during a build never yields a half-built live index", "statement": "If the process is killed at any point of building an index, the next start does not reuse the partial directory: it is removed, and only completely built indexes are reused.", "quantifier": "all crash points of a build", "why_tests_cant": "Crash points cannot be enumerated by tests.", "anchors": ["index/index.go:Build", "index/index.go:writeManifest", "index/index.go:Read", "searcher/searcher.go:findExistingRefs", "searcher/searcher.go:removeUnclaimed"]}
{"id": "C33", "title": "A crash while an old index is being deleted never yields a damaged live index", "statement": "If the process is killed while an old index directory is being removed, the next start never serves searches from that damaged directory.", "quantifier": "all crash points of a removal, all later revisions of the repository", "why_tests_cant": "Crash points inside a recursive delete.", "anchors": ["index/index.go:Destroy", "index/index.go:Remove", "searcher/searcher.go:newSearcher", "searcher/searcher.go:find"]}
{"id": "C34", "title": "Startup garbage collection removes exactly the unused index directories", "statement": "After startup every index directory found in the database path and not reused is gone, and no directory in use by a searcher has been removed.", "quantifier": "all database contents, all repository sets, all claim orders", "why_tests_cant": "Depends on which repositories claim which directories.", "anchors": ["searcher/searcher.go:removeUnclaimed", "searcher/searcher.go:claim", "searcher/searcher.go:find", "searcher/searcher.go:MakeAll"]}
{"id": "C35", "title": "Each index directory belongs to one repository", "statement": "Two configured repositories never share an index directory, so updating one never removes the index of another.", "quantifier": "all configurations and all histories of restarts and updates", "why_tests_cant": "Needs configurations with equal URLs and a restart.", "anchors": ["searcher/searcher.go:find", "searcher/searcher.go:newSearcher", "searcher/searcher.go:swapIndexes"]}
{"id": "C36", "title": "A multi-repository search is independent of completion order", "statement": "The result of searching several repositories is the same for every order in which the per-repository searches finish; it is an error exactly when one of them fails, and otherwise maps each repository with matches to its own response.", "quantifier": "all permutations of completion", "why_tests_cant": "Scheduling nondeterminism.", "anchors": ["api/api.go:searchAll"]}
{"id": "C37", "title": "Request parameters are clamped", "statement": "For every string a client sends, the number of context lines used is at most 20, the result limit is at most 100000 and at least -1, missing or malformed values give the defaults, and the page range never makes the search fail.", "quantifier": "all strings", "why_tests_cant": "Unbounded input space, 64-bit overflow.", "anchors": ["api/api.go:parseAsUintValue", "api/api.go:parseAsIntValue", "api/api.go:parseRangeValue"]}
{"id": "C38", "title": "Only known repositories are searched or updated", "statement": "The repository list of a request selects exactly the known repositories it names (all of them for '*'); unknown names never cause a failure or a search of anything else.", "quantifier": "all request strings, all repository maps", "why_tests_cant": "Unbounded input space.", "anchors": ["api/api.go:parseAsRepoList", "api/api.go:Setup"]}
{"id": "C39", "title": "Push updates are only accepted via POST and when enabled", "statement": "An update request triggers an update of a repository only if it is a POST and push updates are enabled for it; the answer tells success (200), forbidden (403), unknown (404) or bad method (405) accordingly.", "quantifier": "all requests and configurations", "why_tests_cant": "Combination of methods, lists and flags.", "anchors": ["api/api.go:Setup", "searcher/searcher.go:Update", "config/config.go:PushUpdatesEnabled"]}
{"id": "C40", "title": "Repository settings override global VCS settings", "statement": "After loading a configuration, the effective VCS settings of a repository are its own settings plus those global settings of its VCS that it does not set itself; nothing else changes.", "quantifier": "all configurations", "why_tests_cant": "Map merging over arbitrary keys and iteration orders.", "anchors": ["config/config.go:mergeVCSConfigs"]}
{"id": "C41", "title": "VCS secrets are never served", "statement": "Whatever VCS settings (including passwords) a configuration contains, the repository listing sent to clients does not depend on them.", "quantifier": "all configurations", "why_tests_cant": "Non-interference over all secrets.", "anchors": ["config/config.go:SecretMessage", "config/config.go:MarshalJSON", "config/config.go:ToJsonString"]}
{"id": "C42", "title": "Defaults fill only what is missing", "statement": "Loading a configuration fills in defaults for exactly those settings that are missing and never overwrites a given one; applying it twice changes nothing.", "quantifier": "all configurations", "why_tests_cant": "All combinations of present/absent settings.", "anchors": ["config/config.go:initRepo", "config/config.go:initConfig", "config/config.go:optionToBool"]}
{"id": "C43", "title": "The command-line client shows each line once, correctly numbered and marked", "statement": "Merging the matches of a file into display blocks yields blocks of consecutive lines, in order and without overlap, that show every line of every match with its right text and number, and marks exactly the matching lines.", "quantifier": "all files and all sets of matches with any amount of context", "why_tests_cant": "Overlap cases of context windows.", "anchors": ["client/coalesce.go:coalesceMatches", "client/coalesce.go:mergeMatchIntoBlock"]}
{"id": "C44", "title": "Highlighting never alters the text", "statement": "Removing the colour escape sequences from a highlighted line gives back the original line.", "quantifier": "all lines and all match positions", "why_tests_cant": "All interval sets.", "anchors": ["client/ack.go:hiliteMatches", "ansi/ansi.go:FgBg"]}
{"id": "C45", "title": "Repository display names can always be computed", "statement": "For every repository URL the client computes a display name without crashing.", "quantifier": "all URL strings", "why_tests_cant": "Slice arithmetic on arbitrary strings.", "anchors": ["client/client.go:repoNameFromUrl", "client/client.go:repoNameFor"]}
{"id": "C46", "title": "The server answers 503 until ready, and health checks always", "statement": "Before the indexes are ready every request but the health check gets 503; the health check always gets 200; once ready the server never goes back.", "quantifier": "all request/transition interleavings", "why_tests_cant": "Schedules of requests around the switch.", "anchors": ["web/web.go:ServeHTTP", "web/web.go:serveWith"]}
{"id": "C47", "title": "Merging two indexes prefers the newer one", "statement": "Merging index A with a newer index B gives an index with exactly B's files plus those files of A that are not covered by a path of B, ids in order, and for every trigram exactly those merged files that contain it.", "quantifier": "all pairs of well-formed indexes", "why_tests_cant": "Range maps over both name lists and merging of posting lists.", "anchors": ["codesearch/index/merge.go:Merge", "codesearch/index/merge.go:postMapReader", "codesearch/index/merge.go:postDataWriter"]}
{"id": "C48", "title": "A failed fetch is not mistaken for an up-to-date repository", "statement": "If fetching a repository fails, the update reports a failure instead of treating the stale checkout as current.", "quantifier": "all outcomes of the VCS commands", "why_tests_cant": "Command failures are environment dependent.", "anchors": ["vcs/git.go:run", "vcs/git.go:Pull", "vcs/vcs.go:PullOrClone"]}
{"id": "C49", "title": "Auto-generated files are detected exactly", "statement": "A file in the results of a search is flagged auto-generated exactly when the attribute listing of the revision that is searched says so for that path (or the configuration lists it). The list is made once, when the searcher starts: all indexes it builds later carry it, so marks that come or go with later revisions are missed until the next start.", "quantifier": "all attribute listings without NUL in paths, all drivers, all sequences of updates with any failures", "why_tests_cant": "Token triples over arbitrary paths.", "anchors": ["vcs/git.go:AutoGeneratedFiles", "index/index.go:containsString", "searcher/searcher.go:406-447", "searcher/searcher.go:343-391"]}
{"id": "C50", "title": "The branch to index follows the configuration", "statement": "The git reference that is fetched is the configured one if set, otherwise the detected one if detection is enabled and succeeds, otherwise master.", "quantifier": "all driver configurations and detection results", "why_tests_cant": "Decision table over arbitrary strings.", "anchors": ["vcs/git.go:targetRef"]}
{"id": "C51", "title": "The index in use reflects the configured options", "statement": "Whenever an index becomes live for a repository, its content is that of the pulled revision under the options configured for the repository at this start (which dot files and which excluded patterns are left out).", "quantifier": "all sequences of configurations, restarts and updates", "why_tests_cant": "Needs histories of restarts with changing configurations over an unchanged revision.", "anchors": ["searcher/searcher.go:newSearcher", "searcher/searcher.go:find", "index/index.go:Build", "index/index.go:writeManifest"]}
{"id": "C52", "title": "Bounded-memory line scan is exact and terminates", "statement": "Scanning an input through a buffer of fixed size passes every matching line on exactly once, with its newline and its right number, in order, and returns at the end of the input; the command line tool prints accordingly for every combination of its flags.", "quantifier": "all inputs, all ways the reader delivers them (chunking, errors), all programs, all callbacks, all flags, all buffer sizes", "why_tests_cant": "Behaviour depends on where buffer boundaries fall relative to lines; a line longer than the buffer or a pattern that matches empty lines only shows up at boundaries 1 MiB apart.", "anchors": ["index/grep.go:grep", "codesearch/regexp/match.go:Reader", "codesearch/regexp/match.go:countNL"]}
{"id": "C53", "title": "The command line client prints every shown line once, numbered and marked", "statement": "For an answer of the server the client prints, per repository and file, the groups of lines; within a group every line between its first and last line once, with its number in the file and a colon if it matches or a dash if it is context; apart from colours the output is the same on a terminal and elsewhere. A failing write ends the printing and is reported.", "quantifier": "all answers, numbers of context lines, match positions, write failures", "why_tests_cant": "Overlapping context blocks, colours and failures combine without bound.", "anchors": ["client/ack.go:Present", "client/ack.go:lineNumber", "client/ack.go:hiliteMatches", "client/coalesce.go:coalesceMatches"]}
{"id": "C54", "title": "The server carries out the search asked for on the command line", "statement": "The request that the client builds from its flags is read by the server as exactly that search: the pattern, the file filter, the repositories, the case flag, the statistics flag and the number of context lines; and the expression used for marking is the one that is searched for.", "quantifier": "all byte strings as pattern, file filter and repository list; all flags and numbers", "why_tests_cant": "Round trip of an encoding over all byte strings through two programs.", "anchors": ["client/client.go:Search", "client/client.go:doHttpGet", "api/api.go:Setup", "index/index.go:GetRegexpPattern"]}
{"id": "C55", "title": "Failures reach the user of the command line client", "statement": "If the search or the listing of the repositories fails, at the server or on the way, the client ends with an error; otherwise it delivers the server's results. It always ends, and no goroutine is left behind.", "quantifier": "all replies of the server, all transport failures, all schedules of the two requests", "why_tests_cant": "Interleavings of two requests with failures on either side.", "anchors": ["client/client.go:SearchAndLoadRepos", "client/client.go:Search", "client/client.go:LoadRepos", "api/api.go:writeError"]}
{"id": "C56", "title": "Texts of a response reach the client unchanged", "statement": "Every line, context line, file name and line number of a response is decoded by the client to what the server encoded, wherever it stands in the response.", "quantifier": "all texts that can occur in a searched file, all numbers", "why_tests_cant": "Escaping has to be right for all byte sequences and next to any following text.", "anchors": ["api/api.go:writeJson", "index/index.go:Match", "client/client.go:Search"]}
{"id": "C57", "title": "The revision of a local directory changes exactly when its files change", "statement": "For a repository of the local kind the revision is the same at two times exactly if the files below the directory have the same names and contents; cloning makes the directory visible and gives its revision.", "quantifier": "all pairs of directory contents, all settings of the driver", "why_tests_cant": "Quantifies over all pairs of file trees; equality has to be equivalent to equality of a digest.", "anchors": ["vcs/local.go:HeadRev", "vcs/local.go:Clone", "vcs/local.go:Pull"]}
{"id": "C58", "title": "Search results reach the client as the server found them", "statement": "The text of an answer of /api/v1/search is decoded by the client to the same repositories, files, flags, lines, line numbers, context lines, revisions, counts and statistics that the server encoded; in each text exactly the bytes that are not UTF-8 are replaced by U+FFFD, so results in UTF-8 arrive unchanged. An error message is decoded as an answer without results.", "quantifier": "all results of any number of repositories, files and lines, with or without statistics", "why_tests_cant": "Encoder and decoder have to fit for all nested values of any size and all byte sequences in the texts.", "anchors": ["api/api.go:writeJson", "api/api.go:Setup", "index/index.go:SearchResponse", "client/client.go:Search"]}
{"id": "C59", "title": "The command line client prints exactly the matching lines of the files and their context", "statement": "For a search with the hound command, every selected repository that has a file with a matching line (and a matching name, if --files is given) is printed once; under it each such file, in the order of the index; under a file exactly the lines at most the given number of lines away from a line that matches the expression, each once, in order, with its number and text, the matching ones marked.", "quantifier": "all sets of repositories and files, all regular expressions and file filters, all contexts, all orders in which answers arrive and maps are ranged over", "why_tests_cant": "The claim joins the index, the prefilter, the matcher, the context buffers, JSON, the coalescing of blocks and the output, for unboundedly many files, lines and expressions.", "anchors": ["index/index.go:Search", "api/api.go:searchAll", "client/client.go:SearchAndLoadRepos", "client/ack.go:Present"]}
{"id": "C60", "title": "SIGTERM ends houndd, and never in the middle of work on a repository", "statement": "After SIGTERM (sent at any time after the signal is registered, also during startup) houndd exits, unless startup fails. When it exits, startup has finished, the update loop of every searcher has ended, and no clone, pull or index build that was begun is unfinished.", "quantifier": "all numbers of repositories and indexing slots, all settings, all schedules of the goroutines, the requests and the signals; for the exit itself, all fair schedules", "why_tests_cant": "The handler races with the update loops: the order of the token and the flag of Stop, the moment of the signal and the number of repositories give unboundedly many schedules.", "anchors": ["cmds/houndd/main.go:handleShutdown", "cmds/houndd/main.go:registerShutdownSignal", "searcher/searcher.go:Stop", "searcher/searcher.go:Wait"]}
{"id": "C61", "title": "Building trigram queries in place does not corrupt them", "statement": "A client of the query operations (and, or, andTrigrams, the two constants) that uses each query it holds at most once ends with queries that mean exactly what the operations say, although they overwrite and share the storage of their arguments; the queries of one client mean the same after another client has run in the same memory, and allQuery and noneQuery are never written. RegexpQuery is such a client: the queries of any sequence of patterns each keep the meaning of the tree computation.", "quantifier": "all sequences of operations and string sets, all sequences of patterns, all growth policies of append", "why_tests_cant": "Corruption by sharing depends on capacities and on the order of earlier operations; a test sees a few patterns in a fresh process, while a server answers unboundedly many with the same constants.", "anchors": ["codesearch/index/regexp.go:andOr", "codesearch/index/regexp.go:andTrigrams", "codesearch/index/regexp.go:RegexpQuery", "codesearch/index/regexp.go:allQuery"]}
{"id": "C62", "title": "An update works in the repository's own working copy and returns its revision", "statement": "PullOrClone on an existing directory runs every command in that directory. If the directory does not exist, its first command is the driver's clone of the configured URL, run in the parent directory with the last path component as target, and nothing else is run if it fails; all further commands run in the directory. A revision that is returned is the trimmed output of the last command, the driver's question for the revision, asked in that directory.", "quantifier": "all four drivers and their settings, all directories and URLs, all behaviours of the commands (outputs and exit statuses), all earlier histories", "why_tests_cant": "The drivers need the real tools and remotes; tests run one tool on one repository with succeeding commands.", "anchors": ["vcs/vcs.go:PullOrClone", "vcs/git.go:Clone", "vcs/hg.go:Clone", "vcs/svn.go:Clone", "vcs/bzr.go:Clone", "vcs/git.go:HeadRev"]}
{"id": "C63", "title": "The list of excluded files that a client reads", "statement": "A GET of /api/v1/excludes for a known repository answers with a JSON array holding, in order, one object per file left out of that repository's live index, with members Filename (the name, bytes that are not UTF-8 replaced by U+FFFD) and Reason (the documented sentence for the reason), and an empty array when nothing was left out.", "quantifier": "every list of excluded files with names of arbitrary bytes, and every interleaving of listings with the update loop", "why_tests_cant": "names can hold any byte, including quotes, control characters and malformed UTF-8, and the listing reads the index pointer without the lock, so the answer depends on how it interleaves with an update that deletes the old index", "anchors": ["index/index.go:74-77", "index/index.go:350-359", "searcher/searcher.go:139-146", "api/api.go:235-241"]}
{"id": "C64", "title": "The repositories offered to clients are the searchable ones", "statement": "After start-up, the JSON put into the web page and the answer of /api/v1/repos are the same object: exactly one member for each repository that can be searched (repositories that failed to start are absent), holding its configured url, display name, polling interval, vcs, url pattern, flags and auto-generated files under the documented names, with vcs-config shown only as an empty object or null; and the text contains none of the characters & < >.", "quantifier": "every configuration (any byte strings in the settings), every subset of repositories that fail, every order in which Go visits its maps", "why_tests_cant": "the two texts are built from different maps visited in random order, and settings may hold any bytes, including markup and malformed UTF-8", "anchors": ["cmds/houndd/main.go:34-58", "config/config.go:222-229", "api/api.go:178-185", "ui/ui.go:218"]}
{"id": "C65", "title": "What is sent is JSON under the documented names, and what is accepted is JSON", "statement": "Every answer and every error the server writes is a JSON text of RFC 8259 (strict grammar, UTF-8 strings, escaped surrogates only in pairs) followed by a newline; its members carry the documented names (Results, Stats, Matches, FilesWithMatch, Revision, Filename, AutoGenerated, Line, LineNumber, Before, After, FilesOpened, Duration, Error), in this order, with the values of the answer. The decoder reads every JSON text, with any white space and any escapes, as the value it denotes, and accepts nothing that is not such a text except that malformed bytes and lone surrogates inside strings are replaced by U+FFFD.", "quantifier": "every answer (any bytes in lines, file names and errors, any number of repositories, files, matches), every JSON value of any depth, every byte string given to the decoder", "why_tests_cant": "the grammar is unbounded in depth and length and the strings hold arbitrary bytes of arbitrary files", "anchors": ["api/api.go:23-45", "api/api.go:118-165", "index/index.go:53-73", "client/client.go:96-117"]}
{"id": "C66", "title": "The client asks the configured server with the configured headers", "statement": "The command line client asks the host named last in /etc/hound.conf followed by ~/.hound, or the --host flag (else the built-in host, else localhost:6080) if neither names one; it has the headers given there, a later value replacing an earlier one and null removing all earlier ones; it goes on only if each file is missing or valid JSON of the right types. Every request carries every header exactly once under its canonical name, a Host header becoming the host of the request, and the same in both requests and in every run.", "quantifier": "every content of the two files (any JSON text, any spelling of member names, repeated members), every flag and home directory, every order in which Go visits the map of headers", "why_tests_cant": "the files are arbitrary texts, and the order of the map is random, so a clash shows up in some runs only", "anchors": ["cmds/hound/main.go:30-82", "cmds/hound/main.go:106-113", "client/client.go:31-34", "client/client.go:76-92", "client/client.go:121"]}
{"id": "C67", "title": "Index files have the documented format", "statement": "Every index file that the index writer or Merge leaves has the format documented in codesearch/index/read.go: header, NUL-terminated path list, sorted NUL-terminated name list ending with an empty name, posting lists of varint deltas in trigram order ending with trigram ff ff ff, name index, posting list index with entries for the non-empty lists, five offsets, trailer; the posting lists are exactly those of the trigrams that occur in the files. Conversely every file of this format below 4 GB is read back with its paths, names and posting lists, whoever wrote it.", "quantifier": "every list of paths and files, every posting buffer capacity, every file of the format", "why_tests_cant": "tests compare a few written files with fixed bytes; the claim is about the bytes of every index and about files from other writers", "anchors": ["codesearch/index/read.go:7-66", "codesearch/index/write.go:223-280", "codesearch/index/merge.go:107-231"]}
{"id": "C69", "title": "The configuration file is read as what it says", "statement": "A configuration file is one JSON object, with anything after it ignored. Each setting (dbpath, title, repos, max-concurrent-indexers, health-check-uri, vcs-config, result-limit, and those of repositories and URL patterns) has the value of the last member of that name, in any case of letters; null says nothing for texts, numbers and switches and removes optional settings; objects given several times are merged member by member; a vcs-config is the exact text of its value in the file. A file whose JSON is malformed or in which one of these members has a value of a wrong type (numbers beyond int64 included) is refused with an error, every other one is read; loading then changes only what is missing.", "quantifier": "every byte string as the file, any number and nesting of members", "why_tests_cant": "the grammar and the combinations of repeated, differently cased and null members are unbounded", "anchors": ["config/config.go:23-86", "config/config.go:191-220"]}
{"id": "C70", "title": "Loading a configuration file ends with a configuration or an error", "statement": "LoadFromFile never crashes: for every file it either fills the configuration or returns an error.", "quantifier": "every byte string as the file, every working directory", "why_tests_cant": "a crash may need any combination of nulls and missing members in any of the maps", "anchors": ["config/config.go:100-220"]}
{"id": "C68", "title": "Drivers get the settings of the configuration file", "statement": "After loading a configuration, vcs.New for a repository makes the driver its vcs names (git, hg or mercurial, svn or subversion, bzr, local; no other name makes one), and each option of that driver has the value that the repository's vcs-config gives it or, if that does not name it, the global vcs-config for that vcs, or else its zero value. This holds when the options are given under their very names with values of their types; it fails when the repository writes an option in other case than the global settings (the global value may win), when it gives null (hides the global value), and when global settings are given for one name of a VCS and the repository uses the other.", "quantifier": "every configuration that loads, every repository in it, all JSON texts of the repository's own and the global settings, any float codec that reads back what it writes", "why_tests_cant": "The settings pass through two decoders and an encoder (map with sorted keys, then a struct with case-insensitive names); tests sample a few texts, not all objects with repeated names, other members, escapes and nesting.", "anchors": ["config/config.go:142-189", "vcs/vcs.go:40-63", "vcs/git.go:19-49", "vcs/svn.go:13-32", "vcs/local.go:16-35", "vcs/hg.go:12-20", "vcs/bzr.go:12-18"]}
{"id": "C71", "title": "Which answer a request gets is settled by its path", "statement": "A request for the health check URI is always answered by the health check; any other before the indexes are there is refused with 503. Afterwards a path that is not in its proper form (no empty, . or .. names, kept trailing slash) is redirected to it with the same query; a proper path reaches the API endpoint, the page or the embedded file of exactly that name, and 404 otherwise. Every request gets one answer without a crash, and following a redirection never leads to another.", "quantifier": "every health URI, method class, path, query and set of embedded files, before and after startup", "why_tests_cant": "paths are unbounded byte strings; the rules interact (shadowing, cleaning, the slash at the end)", "anchors": ["web/web.go:26-41", "web/web.go:72-85", "api/api.go:177-274", "ui/content.go:39-65", "ui/ui.go:105-137", "ui/bindata.go:17-34"]}
{"id": "C72", "title": "Pages hold what they are given and nothing else", "statement": "Whatever the title, the Host header and the texts of the repositories are, a browser reads the start page as the elements of the template, with the title as the text of the title element and as an attribute, a URL of the same host, and a script that assigns a string literal for the JSON of the repositories; no value adds or ends an element. The page of excluded files and the OpenSearch description are likewise as written.", "quantifier": "every title, every Host header, every configuration, every script without </script and <!--", "why_tests_cant": "injection needs specific bytes in specific places; values are unbounded byte strings", "anchors": ["ui/ui.go:145-165", "ui/content.go:39-65", "ui/assets/index.tpl.html", "ui/assets/open_search.tpl.xml", "ui/assets/excluded_files.tpl.html"]}
{"id": "C73", "title": "A compiled expression matches what it means", "statement": "regexp.Compile makes a matcher of every expression the parser returns, and Match answers with the end of the first line of the text of which the expression matches a part, and with none if there is no such line, whatever was matched before; simplification does not change what an expression means.", "quantifier": "every parsed expression (any nesting, any repetition counts), every text, every state of the matcher", "why_tests_cant": "expressions nest without bound; patch lists, nullable loops and unrolled repetitions interact", "anchors": ["codesearch/regexp/regexp.go:28-70", "codesearch/regexp/match.go:150-340", "codesearch/regexp/utf.go:19-209"]}
{"id": "C74", "title": "A literal search finds the text that was asked for", "statement": "A search with the literal flag answers with the files that have the requested text within one of their lines, in the order of the index, and reports for each of them exactly the lines that contain it, character for character, or up to case if case is to be ignored; no character of the text has a special meaning. A request that is not UTF-8, or too long, is answered with an error.", "quantifier": "all texts, all sets of indexed files, both settings of the case flag, every context and limit", "why_tests_cant": "quoting, parsing, folding, compiling, prefiltering and matching must agree for every string of characters, with all punctuation in all places", "anchors": ["api/api.go:22-60", "codesearch/regexp/regexp.go:33-68", "index/index.go:135-220", "codesearch/regexp/copy.go:76-81"]}
{"id": "C75", "title": "The page shows every line of a result once, with its number and its mark", "statement": "For the matches of a file the page shows every line that is a match or lies in the context of one, exactly once, in the order of the file, with its number and its text; a line is marked if and only if it is a match. Lines that follow each other in the file and touch are shown in one block, and a block holds lines that follow each other.", "quantifier": "all files, all expressions, any number of matches with any context", "why_tests_cant": "contexts overlap in unboundedly many ways: matches inside the context of earlier ones, chains of overlaps, contexts cut by the ends of the file", "anchors": ["ui/assets/js/hound.js:614-688", "index/grep.go:93-175"]}
{"id": "C76", "title": "The html of a line shows the line, with the matches emphasised", "statement": "Whatever the text of a line, and whatever the expression, the html the page makes for it shows exactly the characters of the line and contains no other markup than the emphasis; a line of context has nothing emphasised, and on a matching line the matches are emphasised. For a search for literal text, with any characters in it, these are the occurrences of the text.", "quantifier": "all lines, all expressions, all literal texts", "why_tests_cant": "text that looks like markup or like an expression can be combined in any way with places of matches", "anchors": ["ui/assets/js/hound.js:690-727", "ui/assets/js/common.js:1-3"]}
{"id": "C77", "title": "The page shows the first matching files of every repository asked for, and more on request", "statement": "Whenever the page shows results, they are those of the search asked for last: exactly the repositories asked for that have matching files, each once, each with a prefix of its matching files in order (nothing twice, nothing left out in between) and their total number. No exception stops the page. The button for more results appears while files are missing, each press appends the next files, and in the end all are shown. The Go server answers the page's requests in the way this relies on.", "quantifier": "All servers that answer with the asked range of the results, all repositories, result sizes and queries, all sequences of searches, presses of the button, answers and failed requests, in any order of arrival; for a user who waits for a search before the next and for more of a repository before asking for more of the same.", "why_tests_cant": "The page is a state machine driven by answers that arrive in any order; tests drive one order over a handful of files and never reach the second page of results of one repository while another is loading.", "anchors": ["ui/assets/js/hound.js:130-250", "ui/assets/js/hound.js:905-912", "ui/assets/js/hound.js:1009-1051", "api/api.go:187-233"]}
{"id": "C78", "title": "The address of a search, opened again, is the same search", "statement": "The address the page gives to a search holds all of it: opened again (reload, bookmark, back button, a link sent to someone), the page reads the same query, flags, file filters and repositories from it. Addresses written by others in the classic encoding of forms (a plus for a space, escapes in either letter case) are read as they mean, and the boxes for ignoring case and literal search are ticked exactly when the server takes the value for yes.", "quantifier": "All queries and filters without half surrogate pairs, both flags, all repository names without the characters % & = + # and line breaks; all well written queries with any number of names.", "why_tests_cant": "The round trip goes through encodeURIComponent, the browser's own escaping and decodeURIComponent over all of Unicode; tests try a few strings.", "anchors": ["ui/assets/js/hound.js:20-60", "ui/assets/js/hound.js:1055-1072", "api/api.go:99-102"]}
{"id": "C79", "title": "The repositories selected on the page are the ones searched", "statement": "A search from the form is about exactly the repositories selected in its list, each searched once over; with nothing selected, or everything, all of them. ValidRepos keeps exactly the known names of a list, each once.", "quantifier": "All sets of repositories and all selections, for names that are not empty, not a star, have no comma, no white space around them and are not names every JavaScript object has.", "why_tests_cant": "The names pass through object lookups, joining, the default for an empty value, trimming and splitting on the server; tests use two or three plain names.", "anchors": ["ui/assets/js/hound.js:81-93", "ui/assets/js/hound.js:130-145", "ui/assets/js/hound.js:392-410", "api/api.go:104-121"]}
{"id": "C80", "title": "A link beside a result leads to the file and line it is about", "statement": "The link is the configured pattern with the address of the repository on the web, the revision, the path and the line put in for their names; the address on the web of one fetched with a login (git@host:owner/name, ssh://hg@host:port/owner/name) is //host[:port]/owner/name, of a wiki owner/name/wiki. Two places of a repository have different links.", "quantifier": "All patterns with each name at most once, all addresses of these forms, all paths, revisions and lines, for values without $ and { (and paths without # for the last).", "why_tests_cant": "Values are replaced one after another in a growing text, with replacement patterns in values and a backtracking expression for addresses; tests use one or two addresses and one path.", "anchors": ["ui/assets/js/common.js:5-70", "ui/assets/js/hound.js:278-284", "ui/assets/js/hound.js:750-757", "ui/assets/js/excluded_files.js:6", "config/config.go:17-18"]}
{"id": "C81", "title": "A signal reaches those who listen when it is raised", "statement": "Raising a signal calls exactly the listeners it has at that moment, in the order they were added, each with the arguments passed, whatever listeners add, remove or raise while they are called; if one throws, exactly those before it and itself were called. Adding puts a listener at the end, removing takes out its first occurrence, and removing one that is not there changes nothing.", "quantifier": "All signals that come about by adding, removing and raising, all behaviours of listeners (depending on all calls before), all terminating executions, any depth of raises within raises.", "why_tests_cant": "Listeners that change the list during dispatch, nested raises and exceptions combine without bound; the tests have one listener that removes itself.", "anchors": ["ui/assets/js/signal.js:6-50"]}
{"id": "C82", "title": "The page and the client call a repository by the same name", "statement": "Both show the display name if there is one, otherwise the last two parts of its address without .git (the page with spaces around the slash), the last if there are no two, or the name in the configuration if there is no slash. The page writes numbers in decimal in groups of three digits.", "quantifier": "All configurations, all addresses in which the parts are not empty; all numbers below 2^31.", "why_tests_cant": "Two implementations in two languages with different rules for positions outside a text; tests look at one usual address at most.", "anchors": ["ui/assets/js/hound.js:10-18", "ui/assets/js/hound.js:252-274", "client/client.go:36-74"]}
{"id": "C83", "title": "What is opened is closed", "statement": "Building an index leaves no temporary file, no memory mapping and no open file behind, whether it succeeds or fails; searching leaves nothing open whatever fails; and a searcher never has more than the mapping of the index in use, after any number of updates with any failures.", "quantifier": "All trees (any sequence of directories, files with any number of trigrams, files left out), all outcomes of every system call, any number of updates and searches.", "why_tests_cant": "Leaks show only after many updates or after failures of particular system calls; the full chunks of postings (64 MB) do not occur in tests.", "anchors": ["codesearch/index/write.go:63-73", "codesearch/index/write.go:223-265", "codesearch/index/write.go:292-329", "codesearch/index/mmap_linux.go:13-43", "index/index.go:112-125", "index/index.go:259-282", "index/index.go:310-358", "index/index.go:369-526", "index/grep.go:50-67", "searcher/searcher.go:117-125", "searcher/searcher.go:343-391"]}
{"id": "C84", "title": "The page of excluded files shows those of the repository chosen", "statement": "The table on the page of excluded files has the files and reasons the server answered for the repository whose button was pressed last, with links of that repository; a failing request is not shown as one under way; the button of the repository shown is marked; and no exception stops the page.", "quantifier": "All orders of loading, pressing, answers and failures; all repositories and listings.", "why_tests_cant": "There are no tests of the page, and the errors need particular orders of answers.", "anchors": ["ui/assets/js/excluded_files.js:4-42", "ui/assets/js/excluded_files.js:44-76", "ui/assets/js/excluded_files.js:78-118"]}
{"id": "C85", "title": "The page says how a search stands", "statement": "While a search is under way the page says that it is searching; when its answer arrives the page shows the error, that nothing was found, or the repositories found with the expression searched for marked; and it says that it is searching only while a request is under way.", "quantifier": "All states and orders of editing the form, searching, opening addresses, loading more and answers; all expressions, also those a browser does not accept.", "why_tests_cant": "There are no tests of the page; the failures need an error before, an edit during the request, or an expression of Go that is none of JavaScript.", "anchors": ["ui/assets/js/hound.js:382-421", "ui/assets/js/hound.js:897-906", "ui/assets/js/hound.js:927-991", "ui/assets/js/hound.js:1017-1054"]}
{"id": "C86", "title": "A browser that opens the start page knows the repositories that can be searched", "statement": "Once the server is ready, a request for / is answered with the start page; the script literal a browser reads on it denotes JSON for an object that has one member for each repository that has a searcher, with what is configured for it, and no other; /api/v1/repos answers with the same text.", "quantifier": "All configurations (names, titles, URLs of any bytes), all sets of repositories that failed to index, all Host headers, all orders of maps.", "why_tests_cant": "It goes through five layers (errors of indexing, mutation of the configuration, JSON, the literal of the script, HTML), each with its own escaping; tests have none of the names that need it.", "anchors": ["cmds/houndd/main.go:34-58", "web/web.go:27-42", "web/web.go:72-85", "ui/ui.go:124-164", "ui/ui.go:190-228", "ui/assets/index.tpl.html", "api/api.go:178-185", "config/config.go:222-229"]}
{"id": "C87", "title": "Version control data is never searchable, and nothing else is lost", "statement": "Whatever driver a configuration selects, no file that is indexed or listed as excluded has, as any part of its name, the directory in which that version control system keeps its own data (.git, .hg, .svn, .bzr) or a name in the local driver's ignored-files. Every other regular file of the repository, reached through directories that can be listed and have no dot name when dot files are excluded, is indexed or listed. The second part fails for a local directory whose own name begins with a dot or is ignored: all of it is silently left out.", "quantifier": "all drivers and their configurations, all directory trees, all names, both settings of exclude-dot-files", "why_tests_cant": "Tests index one small tree with fixed options; the claim is about every tree and every driver, including nested metadata directories and the name of the root itself.", "anchors": ["searcher/searcher.go:423-427", "vcs/git.go:149-153", "vcs/hg.go:77-81", "vcs/svn.go:98-102", "vcs/bzr.go:75-79", "vcs/local.go:101-103", "index/index.go:382-411"]}
{"id": "C88", "title": "The local directory that is configured is the one that is indexed", "statement": "For the absolute path of a directory the first start makes a link to it and changes nothing else, every later start from any working directory leaves the file system as it is and finds the same revision, and what is indexed is that directory. It fails for the path of a link to a directory and for a path that does not exist (the repository is started and holds nothing; once the directory is there the revision is unchanged), and for a relative path (nothing is indexed and every later start fails, or the process ends).", "quantifier": "all file systems, paths, working directories, trees and settings of the local driver", "why_tests_cant": "Tests use one temporary directory given by its absolute path, and start once.", "anchors": ["vcs/local.go:64-99", "vcs/vcs.go:67-81", "index/index.go:382-389", "searcher/searcher.go:401-414"]}
{"id": "C89", "title": "How a houndd process ends", "statement": "A houndd process ends in one of three ways and only once: killed by SIGTERM, which happens only before any clone, pull or index build has begun; by a panic with the error of reading the configuration, of making the searchers, of rendering the pages, or - once all repositories are ready - of the listening socket; or with status 0, which takes a SIGTERM and a finished startup, and every piece of work begun has ended. A listener that fails ends the process at once and never in the middle of work on a repository.", "quantifier": "all interleavings of main, the listener, the signal handler, the workers and the outside; for the end after a failed listener all infinite fair runs", "why_tests_cant": "the interleavings of a signal, a failing port and the startup work cannot be enumerated by a test, and that the process ends after a failure is a liveness property", "anchors": ["cmds/houndd/main.go:127-188", "cmds/houndd/main.go:60-80", "web/web.go:54-85"]}
{"id": "C90", "title": "What is open in the results on the page", "statement": "When the answer to a search is shown, the content of every file can be seen, except of files marked as generated; loading more results leaves the files already shown as they are; a click on the title of a file opens or closes this file and nothing else; a click on the title or the chevron of a repository opens or closes all its files and no others; Expand all and Collapse all do so for everything. A closed repository gets no open files, a new answer is shown afresh, and following a link changes nothing.", "quantifier": "all sequences of searches, answers in any order, requests for more, and clicks", "why_tests_cant": "the state is kept by place in the list of components while results come and go in any order; the sequences of answers and clicks are unbounded", "anchors": ["ui/assets/js/hound.js:727-797", "ui/assets/js/hound.js:799-895", "ui/assets/js/hound.js:913-990", "ui/assets/css/hound.css:290"]}
{"id": "C91", "title": "A plain text looked for on the page: the rows shown are the lines that have it", "statement": "When a user searches on the page with 'use string literally' on and no filters on file names, and waits for answers before the next search, then whatever results are on display at any moment belong to the last search: the repositories shown are exactly those asked for that have a file with the text in one of its lines; of each the files shown are the first such files in the order of the index (at least one), with the number of all of them; and of each file shown, every row is a line of the file under its own number, rows are in order and none is there twice, and the rows marked as matches are exactly the lines of the file that contain the text (up to case if 'ignore case' is on). And from any quiet moment such a search can be made and leads, by loading more, to a page on which all of these files are shown, as long as the server replies.", "quantifier": "all sets of repositories with indexes built from any UTF-8 files, all texts, all orders of searching, loading more and arrival of answers by a user who waits, all orders in which the server's goroutines deliver, all answers that get lost", "why_tests_cant": "It composes the page, the handler, the quoting, the parser, the trigram analysis, the index, the matcher and the grouping of rows; a test fixes one text, one set of files and one order of events.", "anchors": ["ui/assets/js/hound.js:130-268", "ui/assets/js/hound.js:300-420", "api/api.go:60-120", "api/api.go:194-247", "index/index.go:155-262", "searcher/searcher.go:120-137", "codesearch/regexp/match.go:80-473"]}
{"id": "C92", "title": "An expression looked for on the page: the rows shown are the lines that match", "statement": "When a user searches on the page for an expression, with or without filters on file names, and waits for answers before the next search, then whatever results are on display belong to the last search: the repositories shown are exactly those asked for that have a file whose name passes both filters and that has a matching line; of each the files shown are the first such files in the order of the index (at least one), with the number of all of them; and of each file shown, every row is a line of the file under its own number, rows are in order and none is there twice, and the rows marked are exactly the matching lines. And from any quiet moment such a search can be made and leads, by loading more, to a page on which all of these files are shown, as long as the server replies.", "quantifier": "all sets of repositories with indexes built from any UTF-8 files, all expressions and filters the parser delivers, all orders of searching, loading more and arrival of answers by a user who waits, all orders in which the server's goroutines deliver, all answers that get lost", "why_tests_cant": "It composes the page, the handler, the trigram analysis, the index, the matcher, the filters, the paging and the grouping of rows; a test fixes one expression, one set of files and one order of events.", "anchors": ["ui/assets/js/hound.js:130-268", "ui/assets/js/hound.js:300-420", "api/api.go:60-120", "api/api.go:194-247", "index/index.go:155-262", "searcher/searcher.go:120-137"]}
{"id": "C93", "title": "The search in the form is the one the server carries out", "statement": "Whatever well-formed text is in the fields of the search bar, the request that the page sends is read by the handler of /api/v1/search as exactly that search: the expression and both file filters as the same text in UTF-8 without the white space around it, case and plain text as the boxes say, statistics on, the first twenty files, the default limit and the default context, and the chosen repositories or, if none are chosen, all of them. In general every object of parameters arrives name by name and value by value, for all texts in all languages, in whatever order its members are enumerated.", "quantifier": "all forms, all objects of parameters, all orders of members, all sets of repositories and limits of the server", "why_tests_cant": "The text passes through encodeURIComponent, the request library, the browser's address parser and Go's query parser, each of which changes other characters; a test tries a few texts.", "anchors": ["ui/assets/js/hound.js:130-169", "ui/assets/js/hound.js:217-235", "ui/assets/js/hound.js:392-410", "api/api.go:130-192", "api/api.go:194-247"]}
{"id": "C94", "title": "The search bar shows the search that it makes", "statement": "Whatever the user, the browser and the server do after the page has come up, the search made when the button or Enter is pressed is the one the search bar shows: the three texts without white space around them, the two boxes, and the repositories shown as selected in the list (all, if all or none are). After an address was opened or gone back to, and nothing was changed, it is the search of that address. What the advanced part of the bar holds is seen: when it is closed there is nothing in it that narrows the search or changes its meaning.", "quantifier": "all addresses, sets of repositories and sequences of keys, clicks, edits, selections, answers and going back", "why_tests_cant": "The list of the browser, the state React keeps of it and the marks of the page are three copies that drift apart only in certain orders of events; a test drives a few of them.", "anchors": ["ui/assets/js/hound.js:296-462", "ui/assets/js/hound.js:463-609", "ui/assets/js/hound.js:993-1054", "ui/assets/js/react-0.12.2.min.js (ReactDOMSelect)"]}
{"id": "C95", "title": "A repository that is polled is fetched again and again", "statement": "For every repository that houndd serves and whose polling the configuration does not switch off, from any time on another pull begins, until the searcher has been told to stop. A repository without polling is pulled at most once for each update request (or stop signal), and one with neither polling nor push updates is never pulled after startup.", "quantifier": "all numbers of repositories and indexing slots, all settings of ms-between-poll and of the two switches, all fair schedules of the goroutines, requests and signals (for the bounds: all schedules)", "why_tests_cant": "That something happens again and again is a property of infinite executions under every schedule, with limiter, timers and channels shared by all repositories; a test waits for one or two rounds of one repository with ordinary delays.", "anchors": ["searcher/searcher.go:149-201", "searcher/searcher.go:343-391", "searcher/searcher.go:457-498", "config/config.go:43-58", "config/config.go:99-103"]}
{"id": "C96", "title": "Searches and updates do not block each other for good", "statement": "Every search of a repository that has been called returns, whatever updates are made meanwhile and however many other searches there are; every update of its index that has begun ends, successfully or not, however many searches keep coming.", "quantifier": "all numbers of searches and updates, all amounts of work in each, all failures of destroying an old or new index, all fair schedules of the goroutines", "why_tests_cant": "Deadlock and starvation depend on the schedule: two read-write locks are taken in turn by any number of goroutines, one writer takes both, and a queue forms behind a writer that waits; a test runs a few schedules of a few goroutines and cannot see an infinite one.", "anchors": ["searcher/searcher.go:117-135", "searcher/searcher.go:343-391", "index/index.go:118-125", "index/index.go:146-150"]}
{"id": "C97", "title": "What is searched follows the source", "statement": "When the source of a repository stops changing and its pulls and builds succeed from then on, the index that is searched comes to be one of the revision of the source and stays so, for every polled repository and for every one whose update is asked for after the change, until the searcher has been told to stop. Whatever fails, an index that is searched is never older than one searched before. While no swap fails, an index is replaced only by one of another revision.", "quantifier": "all histories of the source, all histories of failures of pulls, builds and swaps, all numbers of repositories and indexing slots, all fair schedules of the goroutines, requests and signals", "why_tests_cant": "The loop remembers the revision it last dealt with and compares; whether a change is lost depends on how changes of the source, failures and update requests interleave over an unbounded time. A test makes one change and waits for it.", "anchors": ["searcher/searcher.go:343-391", "searcher/searcher.go:466-498", "searcher/searcher.go:117-135", "searcher/searcher.go:149-201"]}
{"id": "C98", "title": "A text written at the source is found", "statement": "When the source of a served repository rests at a revision and pulls and builds succeed from then on, then from some time on every search for a plain text is answered with that revision and with exactly the lines of its files that contain the text: every line reported is in a file of the working copy and has the text, and every line with the text is reported if its file could be read and is not on the list of excluded files, each of which is there for a documented reason.", "quantifier": "all histories of the source and of failures, all working copies, texts, numbers of repositories and indexing slots, all fair schedules of the goroutines, requests and signals", "why_tests_cant": "It joins liveness over infinite executions (polling, update loop, swap) with the exactness of indexing and searching for all trees and texts; a test commits one file and looks for one word.", "anchors": ["searcher/searcher.go:343-391", "searcher/searcher.go:457-498", "index/index.go:146-257", "index/index.go:366-523", "api/api.go:44-96"]}
{"id": "C99", "title": "Index directories do not pile up", "statement": "While houndd serves, every index directory below the database path is the one a repository is searched in, or one being built or removed for it, so there is one for each repository and one more for each that is being updated, whatever crashes and restarts came before. This holds as long as builds succeed: a failed build leaves its directory until the next start, and as the update is tried again with every poll their number has no bound.", "quantifier": "all sequences of starts, crashes at any moment, updates and failures, all numbers of repositories", "why_tests_cant": "It is about what is left over after arbitrarily long histories of crashes, restarts and failures; a test sees a few updates that succeed.", "anchors": ["searcher/searcher.go:98-113", "searcher/searcher.go:233-250", "searcher/searcher.go:285-327", "searcher/searcher.go:343-391", "index/index.go:108-125", "index/index.go:488-516"]}
{"id": "C100", "title": "Every search request is answered and leaves nothing running", "statement": "Whatever the order in which the searches of a request end and whichever of them fail, the request is answered after a bounded number of steps, with the first error to arrive or with the results of all repositories; no goroutine ever waits to deliver its result, also when the request has long been answered with an error; and when nothing more can happen all of them have ended.", "quantifier": "all lists of repositories (with repetitions), all results and errors, all interleavings of the goroutines and the collecting loop", "why_tests_cant": "A goroutine that is left waiting shows in no answer; whether one is depends on the order of results and errors and on the size of the channel.", "anchors": ["api/api.go:57-97", "api/api.go:216-238"]}
{"id": "C101", "title": "The text typed into the search bar is the text whose lines are shown", "statement": "If a text is typed into the search bar, with 'Use string literally' checked and nothing in the fields for file names, then whenever results are shown for that search they are of the repositories selected (all, if none is), and the rows that are marked in them are exactly the lines of the indexed files that contain the characters typed, up to case if that box is checked; and every such line can be brought on the page by loading more.", "quantifier": "for all typed texts (any characters, of one or two UTF-16 units), all contents of the other fields as said, all visits of the page, all repositories and their indexed files, and all orders in which answers come", "why_tests_cant": "Between the box and the rows lie the trimming and encoding of the form, the parsing of the query, quoting and compiling, the index, the matcher, the answer and the merging of rows; a test types a few texts into one of these, and the texts that go wrong are those that two of them read differently.", "anchors": ["ui/assets/js/hound.js:392-410", "ui/assets/js/hound.js:130-240", "api/api.go:184-250", "index/index.go:162-250", "ui/assets/js/hound.js:640-700"]}
{"id": "C102", "title": "What is written at the sources is on the page for whoever types it", "statement": "Once the sources of the configured repositories have come to rest and pulls and builds succeed, and each is polled or has had a push request taken, then, unless a searcher is stopped, there comes a time after which the indices searched no longer change and any text typed into the search bar to be taken literally leads to a page on which the marked rows are exactly the lines that contain the text in the files now at the sources, as far as these could be read and were not left out for a reason; of every repository asked for, without any other.", "quantifier": "for all executions of the server with any number of repositories, all histories of the sources that come to rest, all trees of UTF-8 files, all texts, all forms sent with them, all visits, and all orders of events", "why_tests_cant": "The claim joins the polling loop, the pull, the walk over the working copy, the index, the swap, the search, the answer, and the state of the page; a test runs one part on one input, and the claim is about what remains true after unbounded time in every interleaving.", "anchors": ["searcher/searcher.go:343-391", "searcher/searcher.go:457-498", "index/index.go:146-257", "index/index.go:366-523", "api/api.go:184-250", "ui/assets/js/hound.js:130-240", "ui/assets/js/hound.js:392-410"]}
{"id": "C103", "title": "In dev mode a page shows its template as it is on disk", "statement": "In dev mode a request for a page is answered from the page's template as the file held it during the request; if the file could not be parsed then, the request fails with the error of that parse; neither failures nor templates of earlier requests are seen by later ones.", "quantifier": "for all executions with any number of concurrent requests for a page and any edits of its template between any two of their steps", "why_tests_cant": "The parsed template is kept in a value all requests share without a lock, so whether a request sees its own template depends on the interleaving with other requests and with edits; a test runs few interleavings and usually one request at a time.", "anchors": ["ui/ui.go:45-61", "ui/ui.go:65-104"]}
{"id": "C104", "title": "The programs do what their command lines say", "statement": "hound asks for a search exactly when its command line consists of settings of its flags and one other argument, the pattern; the search has the last value given for each flag or else its default, numbers and truth values being read as documented; asked for help, given something that is no flag or no value of its kind, or other than one pattern, it asks for nothing and ends accordingly. Every search can be asked for, whatever the pattern. houndd starts with the values of its flags in the same way, and no argument is ignored.", "quantifier": "for all command lines: all lists of arguments, all texts in them", "why_tests_cant": "The claim is about all lists of arguments; which argument is a flag, a value or the pattern depends on everything before it, and values are of three kinds with their own syntax, so that a test can only sample a few shapes.", "anchors": ["cmds/hound/main.go:76-127", "cmds/houndd/main.go:132-145"]}
{"id": "C105", "title": "What is written at the sources is printed for whoever asks hound for it", "statement": "Let the sources of the repositories come to rest, with polling or an accepted push request afterwards, and no searcher stopped. Then from some time on, for every command line of hound that asks for a text (its pattern is the quoted text, with any spelling of the flags for the repositories, the context, the case and the host), the server answers, and whatever the order in which the searchers answer and the client ranges over its map, the output consists of: each selected repository at most once, by its display name; under it each file once that is in the working copy at the revision of rest and has the text; of a file exactly the lines at most the asked number of lines away from one with the text, in order with their numbers, those with the text marked. Every file with the text that could be read and was not left out for a stated reason is printed.", "quantifier": "All repositories and working copies, all histories of the sources and schedules of the searchers, all texts and command lines asking for them, all orders of arrival and of map iteration, all matchers used for colouring.", "why_tests_cant": "It joins an unbounded history of pulls, builds and swaps, any tree of files, any text with its quoting and any argument vector; each test fixes all of these, and the order of a Go map or of goroutines is not under its control.", "anchors": ["cmds/hound/main.go:83-130", "client/client.go:95-157", "client/ack.go:57-111", "api/api.go:57-96", "api/api.go:177-260", "index/index.go:146-257", "index/index.go:369-468", "searcher/searcher.go:343-393", "searcher/searcher.go:395-504"]}
{"id": "C106", "title": "Patterns mean what they say, from the search box to the lines of the files", "statement": "Let a pattern be written with characters, escaped punctuation, the escapes \\a \\f \\n \\r \\t \\v, numbers \\x61 \\x{61} \\141, characters as they are between \\Q and \\E, the dot, classes of characters, ranges, \\d \\D \\s \\S \\w \\W and [:name:] (or what is not in them), ^ $ \\b \\B, capturing and plain groups, and * + ?, or {n} {n,} {n,m} after a single character, with or without a ? behind. Then its text is accepted, and a search with it (and with such patterns as filters for file names) reports of a repository exactly the files whose name is let through and that have a line with a matching part, and of a file exactly those lines: a character matches itself (or its case variants when case is ignored), the dot anything but a newline, a class one of the characters it names (or their case variants) or one of the others, ^ and $ the ends of the lines in a search and the ends of the name in a filter, groups what is in them, repetitions any number of, at least one of, or at most one of what is in front, counts as many as they say. The page shows these files and marks these lines.", "quantifier": "All such patterns of at most 997 bytes, nested to any depth, all filters, all contents and names of files in UTF-8, all repositories and all visits to the page.", "why_tests_cant": "The patterns are an infinite grammar and the parser merges literals, flattens groups and reuses nodes, sorts and complements ranges and turns small classes into letters depending on what stands around; tests try a few patterns on a few lines, while precedence, grouping and the flags in front have to be right for every nesting and every text.", "anchors": ["codesearch/regexp/regexp.go:33-68", "index/index.go:135-262", "api/api.go:22-120", "codesearch/regexp/match.go:1-400", "codesearch/index/regexp.go:1-200", "ui/assets/js/hound.js:130-268"]}
{"id": "C107", "title": "Texts that are no patterns are answered with an error", "statement": "Let a text begin with well-written patterns and opened groups and then have a fault: a closing parenthesis without an opening one, a group that is not closed, a repetition of nothing or of a repetition, a count above 1000 or with the larger number first, or a backslash at the end. Whatever follows, a search with such a text as its pattern, or as a filter on file names, whatever the other fields are, gives an error in every repository, and the server answers with the error and no results, in whatever order the searches end.", "quantifier": "All such texts of at most 997 bytes with groups opened to any depth, all contents of the repositories, all requests for at least one known repository, all orders of the answers.", "why_tests_cant": "The faults can stand after any pattern at any depth; a parser that loses track of one open group, or that reports a fault of a filter only if the pattern itself is accepted, passes the tests of a few short texts.", "anchors": ["codesearch/regexp/regexp.go:33-68", "index/index.go:146-190", "api/api.go:48-96"]}
