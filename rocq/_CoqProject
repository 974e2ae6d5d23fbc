-Q theories Verif
theories/Base.v
theories/F64.v
theories/Utf8.v
theories/Syntax.v
theories/Ext.v
theories/F64Text.v
theories/Json.v
theories/Struct.v
theories/Utils.v
theories/Arith.v
theories/Logic.v
theories/Arrays.v
theories/Strings.v
theories/Dates.v
theories/Financial.v
theories/Stats.v
theories/Cast.v
theories/Dispatch.v
theories/Registry.v
theories/Methods.v
theories/Core.v
theories/Evaluator.v
theories/Lexer.v
theories/Parser.v
theories/Api.v
theories/FnCache.v
theories/Cow.v
theories/Pool.v
theories/Traits.v
theories/Lines.v
theories/JsEngine.v
theories/Host.v
theories/HttpRead.v
theories/HttpAuth.v
theories/HttpCache.v
theories/JsPlugin.v
theories/Multipart.v
theories/HttpServer.v
theories/HttpThreads.v
theories/Pretty.v
theories/Command.v
theories/LineServer.v
theories/Client.v
theories/ClientBench.v
theories/HttpBench.v
theories/ServerArgs.v
theories/Daemon.v
theories/Accept.v
theories/Spec_daemon.v
theories/Spec_accept.v
theories/Base_proofs.v
theories/Spec.v
theories/Spec_syntax.v
theories/Spec_grammar.v
theories/Spec_dates.v
theories/Spec_text.v
theories/Spec_numbers.v
theories/Spec_json.v
theories/Spec_struct.v
theories/Spec_means.v
theories/Spec_registry.v
theories/Spec_shared.v
theories/Spec_traits.v
theories/Spec_stats.v
theories/Spec_methods.v
theories/Spec_http.v
theories/Spec_command.v
theories/Spec_lines.v
theories/Spec_client.v
theories/Spec_bench.v
theories/Spec_args.v
theories/Spec_cross.v
theories/Spec_js.v
theories/Spec_form.v
theories/Spec_eval.v
theories/Spec_httpbench.v
theories/Spec_start.v
theories/Spec_jscall.v
theories/Start_proofs.v
theories/Start_examples_proofs.v
theories/Spec_crash.v
theories/Closed_proofs.v
theories/Crash_proofs.v
theories/Crash_examples_proofs.v
theories/Value_proofs.v
theories/Float_proofs.v
theories/Exact_proofs.v
theories/Text_proofs.v
theories/Array_proofs.v
theories/String_proofs.v
theories/Logic_proofs.v
theories/Utf8_proofs.v
theories/Parser_proofs.v
theories/Lexer_proofs.v
theories/Fuel_proofs.v
theories/Parse_proofs.v
theories/Written_proofs.v
theories/Sim_proofs.v
theories/Grammar_proofs.v
theories/Sound_proofs.v
theories/Grammar_text_proofs.v
theories/Print_proofs.v
theories/Range_proofs.v
theories/Env_proofs.v
theories/Eval_proofs.v
theories/TernaryText_proofs.v
theories/SpreadText_proofs.v
theories/HigherOrder_proofs.v
theories/Date_proofs.v
theories/DateFn_proofs.v
theories/Cast_proofs.v
theories/Round_proofs.v
theories/Display_proofs.v
theories/Nearest_proofs.v
theories/Rounding_proofs.v
theories/Number_proofs.v
theories/Special_proofs.v
theories/Shortest_proofs.v
theories/Json_proofs.v
theories/Object_proofs.v
theories/Layout_proofs.v
theories/Struct_proofs.v
theories/JsonShape_proofs.v
theories/StructRead_proofs.v
theories/Pretty_proofs.v
theories/Method_proofs.v
theories/Method_array_proofs.v
theories/Method_value_proofs.v
theories/Method_object_proofs.v
theories/Spec_functions.v
theories/Function_proofs.v
theories/Finance_proofs.v
theories/Registry_proofs.v
theories/Plain_proofs.v
theories/Pool_proofs.v
theories/Shared_proofs.v
theories/Traits_proofs.v
theories/Compare_proofs.v
theories/Stats_proofs.v
theories/Sqrt_proofs.v
theories/HttpRead_proofs.v
theories/HttpAuth_proofs.v
theories/HttpServer_proofs.v
theories/Debug_proofs.v
theories/Doubles_proofs.v
theories/CacheKey_proofs.v
theories/HttpIds_proofs.v
theories/HttpCache_proofs.v
theories/Command_proofs.v
theories/Lines_proofs.v
theories/Client_proofs.v
theories/BenchFigures_proofs.v
theories/ClientBench_proofs.v
theories/HttpBench_proofs.v
theories/HttpBenchAsks_proofs.v
theories/HttpBenchSays_proofs.v
theories/HttpBenchSuite_proofs.v
theories/ServerArgs_proofs.v
theories/Daemon_proofs.v
theories/Accept_proofs.v
theories/JsPlugin_proofs.v
theories/Cross_proofs.v
theories/Jscall_proofs.v
theories/Jscall_examples_proofs.v
theories/Multipart_proofs.v
theories/Hooks_proofs.v
theories/Example_proofs.v
theories/Upload_proofs.v
theories/Lifecycle_proofs.v
theories/Js_examples_proofs.v
theories/Query_proofs.v
theories/Reply_proofs.v
theories/Spec_same.v
theories/Same_proofs.v
theories/Same_examples_proofs.v
theories/Twice_proofs.v
theories/Means_proofs.v
theories/Numeral_proofs.v
theories/HttpRoutes_proofs.v
theories/HttpExamples_proofs.v
theories/Source_proofs.v
theories/P_Syntax.v
theories/P_Arrays.v
theories/P_Strings.v
theories/P_Eval.v
theories/P_HigherOrder.v
theories/P_Logic.v
theories/P_Dispatch.v
theories/P_Dates.v
theories/P_Cast.v
theories/P_Numbers.v
theories/P_Json.v
theories/P_Registry.v
theories/P_Shared.v
theories/P_Http.v
theories/P_Stats.v
theories/P_Methods.v
theories/P_Functions.v
theories/P_Commands.v
theories/P_Lines.v
theories/P_Args.v
theories/P_Js.v
theories/P_Asking.v
theories/P_Crash.v
theories/P_Start.v
theories/P_Daemon.v
theories/Spec_agree.v
theories/Agree_proofs.v
theories/Spec_shown.v
theories/Shown_proofs.v
theories/Spec_texts.v
theories/Texts_proofs.v
theories/Spec_casts.v
theories/Casts_proofs.v
theories/Arguments_proofs.v
theories/Given_proofs.v
theories/Spec_counted.v
theories/Counted_proofs.v
theories/CountedWants_proofs.v
theories/CountedPage_proofs.v
theories/Inventory.v
theories/Spec_inventory.v
theories/Inventory_proofs.v
theories/Spec_given.v
theories/Spec_arguments.v
theories/P_Accept.v
theories/P_Bench.v
theories/P_HttpBench.v
theories/P_Struct.v
theories/P_Means.v
theories/P_Cross.v
theories/P_Same.v
theories/P_Agree.v
theories/P_Shown.v
theories/P_Texts.v
theories/P_Casts.v
theories/P_Arguments.v
theories/P_Given.v
theories/P_Counted.v
theories/P_Inventory.v
theories/P_Ternary.v
theories/P_Spread.v
