-Q theories Verif
theories/Model/Analyze.v
theories/Model/AnalyzeHeap.v
theories/Model/Api.v
theories/Model/Base.v
theories/Model/BufWriter.v
theories/Model/Client.v
theories/Model/ClientConf.v
theories/Model/ClientRun.v
theories/Model/CmdLine.v
theories/Model/Codec.v
theories/Model/Config.v
theories/Model/ConfigCodec.v
theories/Model/ConfigFile.v
theories/Model/DevPages.v
theories/Model/Drivers.v
theories/Model/Excluded.v
theories/Model/Follow.v
theories/Model/Gather.v
theories/Model/Generated.v
theories/Model/GoFmt.v
theories/Model/GoParse.v
theories/Model/GoRegexp.v
theories/Model/GoStr.v
theories/Model/Grep.v
theories/Model/GrepChunk.v
theories/Model/Handles.v
theories/Model/IndexDir.v
theories/Model/IndexMerge.v
theories/Model/IndexRun.v
theories/Model/Json.v
theories/Model/JsonText.v
theories/Model/Life.v
theories/Model/LocalVcs.v
theories/Model/Locks.v
theories/Model/Matcher.v
theories/Model/Mux.v
theories/Model/Offer.v
theories/Model/PageAddress.v
theories/Model/PageBar.v
theories/Model/PageExcluded.v
theories/Model/PageForm.v
theories/Model/PageLinks.v
theories/Model/PageNames.v
theories/Model/PageOpen.v
theories/Model/PageSay.v
theories/Model/PageSelect.v
theories/Model/PageState.v
theories/Model/PageView.v
theories/Model/Pages.v
theories/Model/Polling.v
theories/Model/Posts.v
theories/Model/Present.v
theories/Model/Query.v
theories/Model/QueryHeap.v
theories/Model/QueryString.v
theories/Model/Reader.v
theories/Model/Request.v
theories/Model/Search.v
theories/Model/Server.v
theories/Model/Shared.v
theories/Model/Shutdown.v
theories/Model/Signal.v
theories/Model/Source.v
theories/Model/Sparse.v
theories/Model/Startup.v
theories/Model/Swap.v
theories/Model/Syntax.v
theories/Model/Utf.v
theories/Model/Utf8.v
theories/Model/Vcs.v
theories/Model/Web.v
theories/Model/Whole.v
theories/Model/Wire.v
theories/Model/Writer.v
theories/Spec/AddressSpec.v
theories/Spec/AnswerSpec.v
theories/Spec/ApiSpec.v
theories/Spec/BarSpec.v
theories/Spec/ChunkSpec.v
theories/Spec/ClientConfSpec.v
theories/Spec/ClientSpec.v
theories/Spec/CmdLineSpec.v
theories/Spec/CodecSpec.v
theories/Spec/CommitSpec.v
theories/Spec/ConfigSpec.v
theories/Spec/DevSpec.v
theories/Spec/DriverSpec.v
theories/Spec/ExcludedSpec.v
theories/Spec/ExprPageSpec.v
theories/Spec/ExprSpec.v
theories/Spec/FaultSpec.v
theories/Spec/FileSpec.v
theories/Spec/FormSpec.v
theories/Spec/FormatSpec.v
theories/Spec/GrepSpec.v
theories/Spec/HtmlReader.v
theories/Spec/IndexSpec.v
theories/Spec/JsonGrammar.v
theories/Spec/JsonSpec.v
theories/Spec/JsonValueSpec.v
theories/Spec/LinkSpec.v
theories/Spec/LiteralSpec.v
theories/Spec/LoadSpec.v
theories/Spec/LocalSpec.v
theories/Spec/MatchSpec.v
theories/Spec/MergeSpec.v
theories/Spec/MuxSpec.v
theories/Spec/Names.v
theories/Spec/OfferSpec.v
theories/Spec/OpenSpec.v
theories/Spec/PageSpec.v
theories/Spec/ParsedSpec.v
theories/Spec/PatternSpec.v
theories/Spec/PileSpec.v
theories/Spec/PlaceSpec.v
theories/Spec/PlainSpec.v
theories/Spec/PollSpec.v
theories/Spec/PresentSpec.v
theories/Spec/PrintedSpec.v
theories/Spec/QueriesSpec.v
theories/Spec/QueryHeapSpec.v
theories/Spec/QuerySpec.v
theories/Spec/RegexSpec.v
theories/Spec/RunSpec.v
theories/Spec/RuneProgSpec.v
theories/Spec/SearchSpec.v
theories/Spec/ServerSpec.v
theories/Spec/SetSpec.v
theories/Spec/SourceSpec.v
theories/Spec/StartupSpec.v
theories/Spec/SwapSpec.v
theories/Spec/TreeSpec.v
theories/Spec/TypedSpec.v
theories/Spec/Utf8Spec.v
theories/Spec/VcsSpec.v
theories/Spec/ViewSpec.v
theories/Spec/WholeSpec.v
theories/Spec/WireSpec.v
theories/Spec/WriteSpec.v
theories/Spec/WrittenSpec.v
theories/Proofs/AddProofs.v
theories/Proofs/AddressProofs.v
theories/Proofs/AnalyzeBytes.v
theories/Proofs/AnalyzeHeapProofs.v
theories/Proofs/AnalyzePure.v
theories/Proofs/AnalyzeSim.v
theories/Proofs/AnalyzeSound.v
theories/Proofs/AnalyzeTop.v
theories/Proofs/AnswerProofs.v
theories/Proofs/ApiProofs.v
theories/Proofs/Arith.v
theories/Proofs/BarProofs.v
theories/Proofs/BufProofs.v
theories/Proofs/CacheProofs.v
theories/Proofs/ChunkProofs.v
theories/Proofs/ChunkTop.v
theories/Proofs/ClassParse.v
theories/Proofs/ClientConfProofs.v
theories/Proofs/ClientProofs.v
theories/Proofs/ClientRequest.v
theories/Proofs/ClientRunProofs.v
theories/Proofs/ClientServer.v
theories/Proofs/CmdLineProofs.v
theories/Proofs/CodecProofs.v
theories/Proofs/CodecSpecProofs.v
theories/Proofs/CommitProofs.v
theories/Proofs/ConfigCodecProofs.v
theories/Proofs/ConfigExample.v
theories/Proofs/ConfigProofs.v
theories/Proofs/ConfigSecrets.v
theories/Proofs/ContentProofs.v
theories/Proofs/ContextProofs.v
theories/Proofs/DevProofs.v
theories/Proofs/DirProofs.v
theories/Proofs/DirTop.v
theories/Proofs/DriverProofs.v
theories/Proofs/EndToEnd.v
theories/Proofs/ExcludedProofs.v
theories/Proofs/ExprLines.v
theories/Proofs/ExprLiteral.v
theories/Proofs/ExprSearch.v
theories/Proofs/ExprTree.v
theories/Proofs/FaultProofs.v
theories/Proofs/FileExample.v
theories/Proofs/FileProofs.v
theories/Proofs/FillProofs.v
theories/Proofs/FlagNumbers.v
theories/Proofs/FmtProofs.v
theories/Proofs/FollowExamples.v
theories/Proofs/FollowProofs.v
theories/Proofs/FormProofs.v
theories/Proofs/FormServe.v
theories/Proofs/FormatBounds.v
theories/Proofs/FormatProofs.v
theories/Proofs/FragProofs.v
theories/Proofs/GatherProofs.v
theories/Proofs/GeneratedProofs.v
theories/Proofs/GoCompileProofs.v
theories/Proofs/GoRegexpTop.v
theories/Proofs/GoSimplifyProofs.v
theories/Proofs/GoStrProofs.v
theories/Proofs/GrammarProofs.v
theories/Proofs/GrammarSound.v
theories/Proofs/GrepPos.v
theories/Proofs/GrepProofs.v
theories/Proofs/GrepTop.v
theories/Proofs/HandlesProofs.v
theories/Proofs/HandlesTame.v
theories/Proofs/HeapProofs.v
theories/Proofs/HiliteProofs.v
theories/Proofs/IndexFile.v
theories/Proofs/IndexMergeExamples.v
theories/Proofs/IndexMergeProofs.v
theories/Proofs/IndexMergeTop.v
theories/Proofs/IndexProofs.v
theories/Proofs/JsonProofs.v
theories/Proofs/JsonValueProofs.v
theories/Proofs/LifeProofs.v
theories/Proofs/LineProofs.v
theories/Proofs/LinkProofs.v
theories/Proofs/ListLemmas.v
theories/Proofs/ListedProofs.v
theories/Proofs/LiteralParse.v
theories/Proofs/LiteralTop.v
theories/Proofs/LoadExample.v
theories/Proofs/LoadProofs.v
theories/Proofs/LocalProofs.v
theories/Proofs/LockExamples.v
theories/Proofs/LockProofs.v
theories/Proofs/LookupProofs.v
theories/Proofs/MarkupProofs.v
theories/Proofs/MatchTop.v
theories/Proofs/MatcherProofs.v
theories/Proofs/MergeCopy.v
theories/Proofs/MergePathLists.v
theories/Proofs/MergePostings.v
theories/Proofs/MergeProofs.v
theories/Proofs/MergeRanges.v
theories/Proofs/MuxPatterns.v
theories/Proofs/MuxProofs.v
theories/Proofs/NameProofs.v
theories/Proofs/OfferProofs.v
theories/Proofs/PageExcludedProofs.v
theories/Proofs/PageExpr.v
theories/Proofs/PageLiteral.v
theories/Proofs/PageLoad.v
theories/Proofs/PageNamesProofs.v
theories/Proofs/PageOpenProofs.v
theories/Proofs/PageOrder.v
theories/Proofs/PageProofs.v
theories/Proofs/PageSayProofs.v
theories/Proofs/PageServe.v
theories/Proofs/PageViewProofs.v
theories/Proofs/PatternParse.v
theories/Proofs/PatternTop.v
theories/Proofs/PileProofs.v
theories/Proofs/PlaceProofs.v
theories/Proofs/PollExamples.v
theories/Proofs/PollProofs.v
theories/Proofs/PresentProofs.v
theories/Proofs/PresentTop.v
theories/Proofs/PrintedProofs.v
theories/Proofs/QueriesProofs.v
theories/Proofs/QueryHeapBase.v
theories/Proofs/QueryHeapCombine.v
theories/Proofs/QueryHeapFactor.v
theories/Proofs/QueryHeapOps.v
theories/Proofs/QueryHeapSteps.v
theories/Proofs/QueryHeapTrigrams.v
theories/Proofs/QueryProofs.v
theories/Proofs/RatioProofs.v
theories/Proofs/ReaderProofs.v
theories/Proofs/RequestProofs.v
theories/Proofs/ScanProofs.v
theories/Proofs/SearchExample.v
theories/Proofs/SearchProofs.v
theories/Proofs/SearchTop.v
theories/Proofs/SelectProofs.v
theories/Proofs/ServerCounts.v
theories/Proofs/ServerExamples.v
theories/Proofs/ServerLive.v
theories/Proofs/ServerProofs.v
theories/Proofs/ServerStart.v
theories/Proofs/ServerTrace.v
theories/Proofs/SharedProofs.v
theories/Proofs/ShutdownExamples.v
theories/Proofs/ShutdownLive.v
theories/Proofs/ShutdownProofs.v
theories/Proofs/SignalProofs.v
theories/Proofs/SortProofs.v
theories/Proofs/SourceProofs.v
theories/Proofs/SpansProofs.v
theories/Proofs/SparseProofs.v
theories/Proofs/SplitProofs.v
theories/Proofs/StartupExamples.v
theories/Proofs/StartupProofs.v
theories/Proofs/StartupResults.v
theories/Proofs/StoreProofs.v
theories/Proofs/StrLemmas.v
theories/Proofs/SwapExamples.v
theories/Proofs/SwapNew.v
theories/Proofs/SwapProofs.v
theories/Proofs/TextProofs.v
theories/Proofs/Thompson.v
theories/Proofs/TreeSearch.v
theories/Proofs/TypedProofs.v
theories/Proofs/Utf8Proofs.v
theories/Proofs/UtfArith.v
theories/Proofs/UtfBuild.v
theories/Proofs/UtfClass.v
theories/Proofs/UtfProg.v
theories/Proofs/UtfTop.v
theories/Proofs/UvarintProofs.v
theories/Proofs/VcsProofs.v
theories/Proofs/WebProofs.v
theories/Proofs/WholeExample.v
theories/Proofs/WholeSearch.v
theories/Proofs/WholeTop.v
theories/Proofs/WindowProofs.v
theories/Proofs/WireProofs.v
theories/Proofs/WriterProofs.v
theories/Proofs/WrittenProofs.v
theories/Props/C01_in_memory.v
theories/Props/C01_prefilter.v
theories/Props/C02.v
theories/Props/C03.v
theories/Props/C04.v
theories/Props/C05.v
theories/Props/C06.v
theories/Props/C07.v
theories/Props/C08.v
theories/Props/C09.v
theories/Props/C10.v
theories/Props/C100_answered.v
theories/Props/C101_typed.v
theories/Props/C102_written.v
theories/Props/C103_dev_pages.v
theories/Props/C104_command_line.v
theories/Props/C105_written_printed.v
theories/Props/C106_patterns.v
theories/Props/C107_faulty.v
theories/Props/C11.v
theories/Props/C12_utf8_text.v
theories/Props/C13.v
theories/Props/C14_utf8_classes.v
theories/Props/C15_first_line.v
theories/Props/C16_reuse.v
theories/Props/C17_matching_lines.v
theories/Props/C18_context.v
theories/Props/C19_fill.v
theories/Props/C20_pagination.v
theories/Props/C21_max_results.v
theories/Props/C22_file_filters.v
theories/Props/C23_end_to_end.v
theories/Props/C23_expressions.v
theories/Props/C23_parsed.v
theories/Props/C24_every_file.v
theories/Props/C25_live_index.v
theories/Props/C26_one_revision.v
theories/Props/C27_failed_update.v
theories/Props/C28_limiter.v
theories/Props/C29_startup.v
theories/Props/C30_push_update.v
theories/Props/C31_stop.v
theories/Props/C32_build_crash.v
theories/Props/C33_removal_crash.v
theories/Props/C34_cleaning.v
theories/Props/C35_one_owner.v
theories/Props/C36_search_all.v
theories/Props/C37_parameters.v
theories/Props/C38_known_repos.v
theories/Props/C39_push_updates.v
theories/Props/C40_vcs_settings.v
theories/Props/C41_secrets.v
theories/Props/C42_defaults.v
theories/Props/C43_blocks.v
theories/Props/C44_highlight.v
theories/Props/C45_repo_names.v
theories/Props/C46_ready.v
theories/Props/C47_index_merge.v
theories/Props/C48_failed_fetch.v
theories/Props/C49_auto_generated.v
theories/Props/C50_target_ref.v
theories/Props/C51_options.v
theories/Props/C52_chunked_grep.v
theories/Props/C53_printed_answer.v
theories/Props/C54_client_request.v
theories/Props/C55_client_errors.v
theories/Props/C56_text_transport.v
theories/Props/C57_local_revision.v
theories/Props/C58_answer_transport.v
theories/Props/C59_printed_results.v
theories/Props/C60_shutdown.v
theories/Props/C61_query_storage.v
theories/Props/C62_working_copy.v
theories/Props/C63_excluded_list.v
theories/Props/C64_offered_repos.v
theories/Props/C65_json.v
theories/Props/C66_client_config.v
theories/Props/C67_index_format.v
theories/Props/C68_driver_settings.v
theories/Props/C69_config_file.v
theories/Props/C70_load_crash.v
theories/Props/C71_routing.v
theories/Props/C72_pages.v
theories/Props/C73_compiled_expressions.v
theories/Props/C74_plain_text.v
theories/Props/C75_page_lines.v
theories/Props/C76_page_html.v
theories/Props/C77_load_more.v
theories/Props/C78_page_address.v
theories/Props/C79_selection.v
theories/Props/C80_links.v
theories/Props/C81_signal.v
theories/Props/C82_page_names.v
theories/Props/C83_handles.v
theories/Props/C84_excluded_page.v
theories/Props/C85_page_says.v
theories/Props/C86_known_repos.v
theories/Props/C87_special_files.v
theories/Props/C88_local_directory.v
theories/Props/C89_life.v
theories/Props/C90_open_files.v
theories/Props/C91_page_text.v
theories/Props/C92_page_expression.v
theories/Props/C93_form_sent.v
theories/Props/C94_search_bar.v
theories/Props/C95_polling.v
theories/Props/C96_waiting.v
theories/Props/C97_fresh.v
theories/Props/C98_commit.v
theories/Props/C99_directories.v
theories/Conform/ConfigExampleJson.v
theories/Conform/Folding.v
theories/Conform/Matches.v
theories/Conform/Queries.v
theories/Conform/TestClient.v
theories/Conform/TestConfig.v
theories/Conform/TestGrep.v
theories/Conform/TestIndex.v
theories/Conform/TestMatch.v
theories/Conform/TestPage.v
theories/Conform/TestQuery.v
